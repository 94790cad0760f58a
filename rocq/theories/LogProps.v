(** Property theorems about writing and replaying logs (C31, C32, C33, C71). *)
From Coq Require Import String ZArith NArith List Bool Lia Reals Lra Permutation.
From Flocq Require Core.Generic_fmt IEEE754.BinarySingleNaN.
From Verif Require Import SerializeModel SerializeSpec SerializeProps UtcTimeModel UtcTimeSpec Float64 QuantizedModel UtcDoubleModel UtcDoubleProofs LogModel LogSpec LogProofs MaintProofs.
Import ListNotations.
Local Open Scope string_scope.
Local Open Scope list_scope.
Local Open Scope nat_scope.

(** C31: every record of every subscribed stream is delivered, unchanged and in the
    order written; after an early stop, a prefix of them. *)
Theorem c31_all_records : forall translation dual junk, three_doubles translation -> four_doubles dual ->
  forall cbs ops files order ms, wrun translation ops [] = Some files -> Permutation files order -> records_ok cbs ops ->
  exists n, forall fuel, n <= fuel ->
  match read dual junk fuel cbs (reopened dual junk order) ms with
  | OutOfFuel _ => False
  | Undefined => ms <> []
  | Finished tr => forall k, (cbs k = None -> delivered k tr = []) /\ (cbs k <> None -> Forall2 (same_record translation dual) (logged k ops) (delivered k tr))
  | Stopped tr => forall k, (cbs k = None -> delivered k tr = []) /\
      (cbs k <> None -> exists rest, Forall2 (same_record translation dual) (logged k ops) (delivered k tr ++ rest))
  end.
Proof. exact replay_whole. Qed.
Print Assumptions c31_all_records.
(** In the order of the stamps, if every subscribed stream was written so; also from
    files that have been cut. *)
Theorem c31_time_order : forall translation dual junk, three_doubles translation -> four_doubles dual ->
  forall cbs ops files order cut ms, wrun translation ops [] = Some files -> Permutation files order -> records_ok cbs ops ->
  (forall k, cbs k <> None -> nondecreasing (map (fun r => instant (fst r)) (logged k ops))) ->
  exists n, forall fuel, n <= fuel ->
  match read dual junk fuel cbs (opened dual junk cut order) ms with
  | Finished tr | Stopped tr => nondecreasing (times tr)
  | Undefined => ms <> []
  | OutOfFuel _ => False
  end.
Proof. exact replay_sorted. Qed.
Print Assumptions c31_time_order.

(** Two streams, of samples and of pairs of an integer and a double. *)
Definition x_t (s n : Z) : utc := mkUtc s n.
Definition x_pair (a b : Z) : list (ty * value) := [(Prim INT32, Num a); (Prim FP64, Num b)].
Definition x_ops : list wop :=
  [Init 0; Init 5; Log 0 (x_t 10 0) [(tImu, x_imu)]; Log 5 (x_t 10 5) (x_pair 7 8); Log 0 (x_t 10 9) [(tImu, x_imu)]; Log 5 (x_t 11 0) (x_pair (-3) 4)].
Definition x_cbs (k : Z) : option (list (ty * value)) :=
  if (k =? 0)%Z then Some [(tImu, x_imu0)] else if (k =? 5)%Z then Some (x_pair 0 0) else None.
Ltac pair_ok := repeat (apply Forall_cons; [cbn [fst snd]; eexists; split; [reflexivity|cbn; lia]|]); apply Forall_nil.
Lemma x_records : records_ok x_cbs x_ops.
Proof.
  assert (Fi : fits [(tImu, x_imu0)] [(tImu, x_imu)]).
  { exists [AImu]. split; [reflexivity|]. split; [reflexivity|]. split; [apply Forall_cons; [cbn [fst snd]; imu_ok|apply Forall_nil]|].
    split; [apply Forall_cons; [cbn [fst snd]; imu_ok|apply Forall_nil]|]. apply Forall_cons; [cbn; tauto|apply Forall_nil]. }
  assert (Fp : forall a b, in_range INT32 a -> in_range FP64 b -> fits (x_pair 0 0) (x_pair a b)).
  { intros a b A B. exists [AScalar INT32; AScalar FP64]. split; [reflexivity|]. split; [reflexivity|]. split; [|split].
    - apply Forall_cons; [eexists; split; [reflexivity|exact A]|]. apply Forall_cons; [eexists; split; [reflexivity|exact B]|apply Forall_nil].
    - pair_ok.
    - repeat (apply Forall_cons; [exact I|]). apply Forall_nil. }
  intros k t data ts I E. cbn in I.
  repeat (destruct I as [I|I]; [try discriminate I; injection I as <- <- <-; unfold x_cbs in E; cbn in E; injection E as <-;
    (split; [split; [unfold normal; cbn; lia|cbn; lia]|first [exact Fi|apply Fp; cbn; lia]])|]). destruct I.
Qed.
Example c31_case : three_doubles tr0 /\ four_doubles du0 /\ records_ok x_cbs x_ops /\
  (forall k, x_cbs k <> None -> nondecreasing (map (fun r => instant (fst r)) (logged k x_ops))) /\
  exists files, wrun tr0 x_ops [] = Some files /\ Permutation files files /\
  match read du0 [] 20 x_cbs (reopened du0 [] files) [] with Finished tr => map (fun m => fst m) (messages tr) = [(0, x_t 10 0); (5, x_t 10 5); (0, x_t 10 9); (5, x_t 11 0)]%Z | _ => False end.
Proof.
  split; [exact tr0_ok|]. split; [exact du0_ok|]. split; [exact x_records|]. split.
  - intros k N. unfold x_cbs in N. destruct (Z.eqb_spec k 0) as [E|_]; [|destruct (Z.eqb_spec k 5) as [E|_]; [|congruence]]; rewrite E;
      cbn; repeat constructor; cbn; lia.
  - eexists. split; [vm_compute; reflexivity|]. split; [apply Permutation_refl|]. vm_compute. reflexivity.
Qed.

(** C32, full statement (false of the code): from a file cut anywhere exactly the
    complete records are delivered.  A record cut in its payload is delivered too,
    with its missing values left as they were. *)
Theorem c32_incomplete_refuted : exists ops files cbs k cut data, wrun tr0 ops [] = Some files /\ records_ok cbs ops /\ logged k ops = [data] /\
  cut < size_of tr0 [data] /\ exists fuel tr t vs, read du0 [] fuel cbs (opened du0 [] (fun _ => cut) files) [] = Finished tr /\ delivered k tr = [(t, vs)] /\
    ~ same_record tr0 du0 data (t, vs).
Proof.
  exists [Init 5; Log 5 (x_t 10 5) (x_pair 7 8)]. eexists. exists x_cbs, 5%Z, 20, (x_t 10 5, x_pair 7 8). split; [vm_compute; reflexivity|].
  split; [|split; [reflexivity|]; split; [vm_compute; lia|]].
  - intros k t data ts I E. apply (x_records k t data ts); [|exact E]. destruct I as [I|[I|[]]]; [discriminate I|]. rewrite <- I. cbn. auto.
  - exists 5, [Msg 5 (x_t 10 5) [Num 7; Num 0]], (x_t 10 5), [Num 7; Num 0]. split; [vm_compute; reflexivity|]. split; [reflexivity|].
    intros (_ & S). inversion S as [|? ? ? ? _ S']; subst. inversion S' as [|? ? ? ? C _]; subst. cbn in C. discriminate C.
Qed.
Print Assumptions c32_incomplete_refuted.

(** Proved: every complete record is delivered unchanged; besides them at most one
    message, with the stamp of the record the cut lies in. *)
Theorem c32_complete_partial : forall translation dual junk, three_doubles translation -> four_doubles dual ->
  forall cbs ops files order cut, wrun translation ops [] = Some files -> Permutation files order -> records_ok cbs ops ->
  exists n, forall fuel, n <= fuel ->
  exists tr, read dual junk fuel cbs (opened dual junk cut order) [] = Finished tr /\
    forall k, (cbs k = None -> delivered k tr = []) /\ (cbs k <> None -> cut_records translation dual (cut k) (logged k ops) (delivered k tr)).
Proof.
  intros translation dual junk T D cbs ops files order cut W P R. destruct (perm_wrun translation dual junk T D ops files order W P) as (El & ND & _).
  destruct (replay_ok translation dual junk T D cbs ops files order cut [] W El ND R) as (n & H).
  exists n. intros fuel Lf. destruct (H fuel Lf) as (H1 & _). destruct (read_no_maint dual junk cbs fuel cut order) as [(tr & E)|(tr & E)]; rewrite E in *.
  - exists tr. split; [reflexivity|]. intros k. destruct (H1 k) as (A & B). split; [exact A|]. intros Ck. destruct (B Ck) as (c & -> & C). exact C.
  - destruct H1.
Qed.
Print Assumptions c32_complete_partial.
(** The Python reader shows exactly the complete records. *)
Theorem c32_python_partial : forall translation, three_doubles translation ->
  forall args (recs : list (value * list value)), plain_args args ->
  Forall (fun r => has_type tUTC (fst r) /\ Forall2 (fun na v => has_type (arg_ty (snd na)) v) args (snd r)) recs ->
  let bytes l := concat (map (fun r => record_bytes translation (fst r) args (snd r)) l) in
  exists y d, makeFormat args = Some y /\ make_dtype y = Some d /\
    forall n, exists c, fromfile d (firstn n (bytes recs)) = map (fun r => p_record translation (fst r) args (snd r)) (firstn c recs) /\
      c <= length recs /\ length (bytes (firstn c recs)) <= n /\ (c < length recs -> n < length (bytes (firstn (S c) recs))).
Proof. exact python_cut. Qed.
Print Assumptions c32_python_partial.
(** Hypotheses: [c31_case] and [c30_case]. *)

(** C33: every maintenance callback is called for exactly those records that reach
    its next due time (to within 50 microseconds), once, before the record, and its
    due times are one period apart; nothing overflows. *)
Theorem c33_on_time : forall translation dual junk, three_doubles translation -> four_doubles dual ->
  forall cbs ops files order cut ms fuel, wrun translation ops [] = Some files -> Permutation files order -> records_ok cbs ops ->
  (forall k t data, In (Log k t data) ops -> far_from_overflow t) -> (forall m, In m ms -> far_from_overflow (next_call m) /\ period_ok (period m)) ->
  exists ns : b64 -> Z, (forall p, period_ok p -> (Rabs (IZR (ns p) - val p * 1000000000) < 1 + val p * 1000000000 * / IZR (2 ^ 53))%R) /\
  match read dual junk fuel cbs (opened dual junk cut order) ms with
  | Undefined => False
  | Finished tr | OutOfFuel tr => forall i m, nth_error ms i = Some m -> on_time i (instant (next_call m)) (ns (period m)) tr
  | Stopped tr => (forall i m, nth_error ms i = Some m -> on_time i (instant (next_call m)) (ns (period m)) tr) /\
      exists a b t, tr = a ++ b /\ at_boundary a /\ only_maint b /\ b <> [] /\
        forall i m, nth_error ms i = Some m -> round_on_time i (instant (next_call m)) (ns (period m)) a b t false
  end.
Proof.
  intros translation dual junk T D cbs ops files order cut ms fuel W P R S M. exists step_ns. split; [exact step_close|].
  exact (replay_timed translation dual junk T D cbs ops files order cut ms fuel W P R S M).
Qed.
Print Assumptions c33_on_time.
(** A period of 1 s over the log of [c31_case]. *)
Definition x_one : b64 := of_Z 1.
Definition x_ms : list mcb := [mkM x_one (fun _ _ => true) (x_t 9 500000000)].
Example c33_case : (forall k t data, In (Log k t data) x_ops -> far_from_overflow t) /\ (forall m, In m x_ms -> far_from_overflow (next_call m) /\ period_ok (period m)) /\
  exists files tr, wrun tr0 x_ops [] = Some files /\ read du0 [] 20 x_cbs (reopened du0 [] files) x_ms = Finished tr /\ calls 0 tr = 2.
Proof.
  split; [|split].
  - intros k t data I. cbn in I. repeat (destruct I as [I|I]; [first [discriminate I|injection I as <- <- <-; split; [unfold normal; cbn; lia|cbn; lia]]|]). destruct I.
  - intros m [<-|[]]. split; [split; [unfold normal; cbn; lia|cbn; lia]|]. split; [vm_compute; reflexivity|].
    cbn [period]. assert (V : val x_one = 1%R) by (destruct (of_Z_ok 1) as (V1 & _); [lia|]; unfold x_one; rewrite V1;
      apply Flocq.Core.Generic_fmt.round_generic; [apply Flocq.IEEE754.BinarySingleNaN.valid_rnd_round_mode|apply (UtcDoubleProofs.format_Z 1); lia]). rewrite V. split; [|apply IZR_lt; lia]. apply IZR_le; lia.
  - eexists; eexists. split; [vm_compute; reflexivity|]. split; [vm_compute; reflexivity|]. vm_compute. reflexivity.
Qed.

(** C71, full statement (false of the code): reading a log returns, whatever is missing.
    With the file of a subscribed stream missing, read never returns: the callback is
    looked up with a key that was never read from a file. *)
Theorem c71_missing_file_refuted : forall dual junk k key0 ts cbs, cbs k = Some ts -> cbs key0 = None -> forall fuel,
  read dual junk fuel cbs [open_stream dual junk key0 k None] [] = OutOfFuel [].
Proof. intros dual junk k key0 ts cbs A B. exact (missing_loops dual junk cbs key0 k ts A B). Qed.
Print Assumptions c71_missing_file_refuted.
Example c71_case : x_cbs 5 = Some (x_pair 0 0) /\ x_cbs (-559038737) = None.
Proof. split; reflexivity. Qed.
(** Proved: if every subscribed stream has its files and the keys agree, read returns
    whatever bytes the files hold and whatever the maintenance callbacks are. *)
Theorem c71_returns_partial : forall dual junk cbs (l : list (Z * Z * list N)) ms, (forall k y b, In (k, y, b) l -> cbs k <> None -> cbs y <> None) ->
  exists n, forall fuel, n <= fuel -> forall tr,
  read dual junk fuel cbs (map (fun x => open_stream dual junk 0 (fst (fst x)) (Some (snd (fst x), snd x))) l) ms <> OutOfFuel tr.
Proof.
  intros dual junk cbs l ms K. destruct (read_ends dual junk cbs (map (fun x => open_stream dual junk 0 (fst (fst x)) (Some (snd (fst x), snd x))) l) ms) as (n & H).
  - intros s I. apply in_map_iff in I as (((k, y), b) & <- & I). cbn [fst snd]. destruct (open_keys dual junk 0 k y b) as (-> & ->). apply (K k y b I).
  - exists n. intros fuel L tr E. specialize (H fuel L). rewrite E in H. exact H.
Qed.
Print Assumptions c71_returns_partial.
Example c71_partial_case : forall k y b, In (k, y, b) [(0, 0, [1; 2; 3]%N); (5, 5, [])]%Z -> x_cbs k <> None -> x_cbs y <> None.
Proof. intros k y b [E|[E|[]]]; injection E as <- <- <-; auto. Qed.
