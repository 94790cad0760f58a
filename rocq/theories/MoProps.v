(** C254: maintenance callbacks and the time at which they are set. *)
From Coq Require Import String ZArith NArith List Bool Lia Reals Permutation.
From Verif Require Import SerializeModel SerializeSpec SerializeProps UtcTimeModel UtcTimeSpec Float64 QuantizedModel UtcDoubleModel LogDirModel LogModel LogSpec LogProofs MaintProofs LogProps MoModel MoProofs.
Import ListNotations.
Local Open Scope nat_scope.

(** C254, full statement (false of the code): a callback that is set before a log is
    opened is refused, or is called like one that is set after it.  It is accepted, and
    whatever is then read, the reader does what it does without any callback. *)
Theorem c254_before_refuted : forall calls, exists ms, set_all calls reader0 [] = Some ms /\ length ms = length calls /\
  forall translation dual junk, three_doubles translation -> four_doubles dual ->
  forall cbs ops files order cut fuel, wrun translation ops [] = Some files -> Permutation files order -> records_ok cbs ops ->
  (forall k t data, In (Log k t data) ops -> far_from_overflow t /\ (0 < sec t)%Z) ->
  read dual junk fuel cbs (opened dual junk cut order) ms = read dual junk fuel cbs (opened dual junk cut order) [].
Proof.
  intros calls. eexists. split; [apply set_all_is; discriminate|]. split; [apply map_length|].
  intros translation dual junk T D cbs ops files order cut fuel W P R S. apply (never_called translation dual junk T D cbs ops files order cut _ fuel W P R S).
  apply Forall_forall. intros m I. apply in_map_iff in I as (c & <- & _). reflexivity.
Qed.
Print Assumptions c254_before_refuted.

(** Missing for the full statement: callbacks set before the log is opened.  Those that
    are set after it are accepted and called on time, from the start of the log on. *)
Theorem c254_after_partial : forall n d s r, openLog n d s reader0 = Opened r -> far_from_overflow (r_start r) ->
  forall calls, (forall c, In c calls -> period_ok (fst c)) -> exists ms, set_all calls r [] = Some ms /\
  forall translation dual junk, three_doubles translation -> four_doubles dual ->
  forall cbs ops files order cut fuel, wrun translation ops [] = Some files -> Permutation files order -> records_ok cbs ops ->
  (forall k t data, In (Log k t data) ops -> far_from_overflow t) ->
  exists ns : b64 -> Z, (forall p, period_ok p -> (Rabs (IZR (ns p) - val p * 1000000000) < 1 + val p * 1000000000 * / IZR (2 ^ 53))%R) /\
  match read dual junk fuel cbs (opened dual junk cut order) ms with
  | Undefined => False
  | Finished tr | OutOfFuel tr | Stopped tr => forall i c, nth_error calls i = Some c -> on_time i (instant (r_start r)) (ns (fst c)) tr
  end.
Proof.
  intros n d s r _ Fr calls Pc. eexists. split; [apply set_all_is; apply far_not_min; exact Fr|]. cbn [app].
  intros translation dual junk T D cbs ops files order cut fuel W P R S.
  destruct (c33_on_time translation dual junk T D cbs ops files order cut (map (fun c => mkM (fst c) (snd c) (r_start r)) calls) fuel W P R S) as (ns & Hn & H).
  { intros m I. apply in_map_iff in I as (c & <- & I). split; [exact Fr|exact (Pc c I)]. }
  exists ns. split; [exact Hn|].
  assert (Q : forall tr, (forall i m, nth_error (map (fun c => mkM (fst c) (snd c) (r_start r)) calls) i = Some m -> on_time i (instant (next_call m)) (ns (period m)) tr) ->
    forall i c, nth_error calls i = Some c -> on_time i (instant (r_start r)) (ns (fst c)) tr).
  { intros tr X i c E. apply (X i (mkM (fst c) (snd c) (r_start r))). rewrite nth_error_map, E. reflexivity. }
  destruct (read dual junk fuel cbs (opened dual junk cut order) _) as [tr|tr| |tr]; [apply Q; exact H|apply Q; apply H|exact H|apply Q; exact H].
Qed.
Print Assumptions c254_after_partial.
(** ... whatever was set before: those callbacks are never called and the others are
    still called on time. *)
Theorem c254_mixed_partial : forall before n d s r, openLog n d s reader0 = Opened r -> far_from_overflow (r_start r) ->
  forall after, (forall c, In c after -> period_ok (fst c)) -> exists ms0 ms, set_all before reader0 [] = Some ms0 /\ set_all after r ms0 = Some ms /\
  forall translation dual junk, three_doubles translation -> four_doubles dual ->
  forall cbs ops files order cut fuel, wrun translation ops [] = Some files -> Permutation files order -> records_ok cbs ops ->
  (forall k t data, In (Log k t data) ops -> far_from_overflow t /\ (0 < sec t)%Z) ->
  exists ns : b64 -> Z, (forall p, period_ok p -> (Rabs (IZR (ns p) - val p * 1000000000) < 1 + val p * 1000000000 * / IZR (2 ^ 53))%R) /\
  match read dual junk fuel cbs (opened dual junk cut order) ms with
  | Undefined => False
  | Finished tr | OutOfFuel tr | Stopped tr => (forall i, i < length before -> calls i tr = 0) /\
      forall i c, nth_error after i = Some c -> on_time (length before + i) (instant (r_start r)) (ns (fst c)) tr
  end.
Proof.
  intros before n d s r _ Fr after Pc. eexists. eexists. split; [apply set_all_is; discriminate|]. split; [apply set_all_is; apply far_not_min; exact Fr|]. cbn [app].
  intros translation dual junk T D cbs ops files order cut fuel W P R S.
  set (B := map (fun c => mkM (fst c) (snd c) (r_start reader0)) before). set (A := map (fun c => mkM (fst c) (snd c) (r_start r)) after).
  assert (Lb : length B = length before) by apply map_length.
  assert (Fb : Forall (fun m => next_call m = utc_max) B) by (apply Forall_forall; intros m I; apply in_map_iff in I as (c & <- & _); reflexivity).
  rewrite (both_read translation dual junk T D cbs ops files order cut B A fuel W P R S Fb), Lb.
  destruct (c33_on_time translation dual junk T D cbs ops files order cut (map (un (length before)) A) fuel W P R (fun k t x I => proj1 (S k t x I))) as (ns & Hn & H).
  { intros m I. apply in_map_iff in I as (m0 & <- & I). apply in_map_iff in I as (c & <- & I). split; [exact Fr|exact (Pc c I)]. }
  exists ns. split; [exact Hn|].
  assert (Q : forall tr, (forall i m, nth_error (map (un (length before)) A) i = Some m -> on_time i (instant (next_call m)) (ns (period m)) tr) ->
    (forall i, i < length before -> calls i (map (sh (length before)) tr) = 0) /\
    forall i c, nth_error after i = Some c -> on_time (length before + i) (instant (r_start r)) (ns (fst c)) (map (sh (length before)) tr)).
  { intros tr X. split; [intros i; apply calls_below|]. intros i c E. apply on_time_shift.
    apply (X i (un (length before) (mkM (fst c) (snd c) (r_start r)))). unfold A. rewrite !nth_error_map, E. reflexivity. }
  destruct (read dual junk fuel cbs (opened dual junk cut order) _) as [tr|tr| |tr]; cbn [osh]; [apply Q; exact H|apply Q; apply H|exact H|apply Q; exact H].
Qed.
Print Assumptions c254_mixed_partial.

(** The log of [c31_case] with a period of 1 s: never called when set before the log is
    opened, called when set after. *)
Definition m_man : manifest := mkMan (x_t 9 500000000) (x_t 20 0) [1%Z] ["GNSS_OBS"%string] None.
Definition m_fs : fs := [("/l"%string, mkDir (Some m_man) [] [])].
Definition m_calls : list (b64 * (list event -> utc -> bool)) := [(x_one, fun _ _ => true)].
Example c254_case : (forall k t data, In (Log k t data) x_ops -> far_from_overflow t /\ (0 < sec t)%Z) /\
  exists r ms0 ms1 files tr0' tr1, openLog 1 "/l" m_fs reader0 = Opened r /\ far_from_overflow (r_start r) /\
    set_all m_calls reader0 [] = Some ms0 /\ set_all m_calls r [] = Some ms1 /\ wrun tr0 x_ops [] = Some files /\
    read du0 [] 20 x_cbs (reopened du0 [] files) ms0 = Finished tr0' /\ calls 0 tr0' = 0 /\ messages tr0' <> [] /\
    read du0 [] 20 x_cbs (reopened du0 [] files) ms1 = Finished tr1 /\ calls 0 tr1 = 2.
Proof.
  split.
  - intros k t data I. cbn in I. repeat (destruct I as [I|I]; [first [discriminate I|injection I as <- <- <-; split; [split; [unfold normal; cbn; lia|cbn; lia]|cbn; lia]]|]). destruct I.
  - do 6 eexists. split; [reflexivity|]. split; [split; [unfold normal; cbn; lia|cbn; lia]|]. split; [reflexivity|]. split; [reflexivity|]. split; [vm_compute; reflexivity|].
    split; [vm_compute; reflexivity|]. split; [vm_compute; reflexivity|]. split; [vm_compute; discriminate|]. split; [vm_compute; reflexivity|vm_compute; reflexivity].
Qed.
(** One set before opening, one after: the second is called twice, the first never. *)
Example c254_mixed_case : exists r ms0 ms files tr, openLog 1 "/l" m_fs reader0 = Opened r /\ set_all m_calls reader0 [] = Some ms0 /\ set_all m_calls r ms0 = Some ms /\
  wrun tr0 x_ops [] = Some files /\ read du0 [] 20 x_cbs (reopened du0 [] files) ms = Finished tr /\ calls 0 tr = 0 /\ calls 1 tr = 2.
Proof.
  do 5 eexists. split; [reflexivity|]. split; [reflexivity|]. split; [reflexivity|]. split; [vm_compute; reflexivity|]. split; [vm_compute; reflexivity|]. split; vm_compute; reflexivity.
Qed.
