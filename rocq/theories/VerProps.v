(** Property theorems about tools/verify_ephemeris.cxx (C239, C240). *)
From Coq Require Import String ZArith NArith List Bool Lia Permutation.
From Verif Require Import SerializeModel SerializeSpec SerializeProofs SerializeProps UtcTimeModel UtcTimeSpec Float64 QuantizedModel LogModel LogSpec VerModel VerSpec VerProofs.
From Verif Require GatModel GatSpec GatProofs GatOriginProofs GatCaseProofs GatProps GpsProps UbxSpec Bytes.
Import ListNotations.
Local Open Scope string_scope.
Local Open Scope list_scope.

(** C239: for each of the three streams of ephemerides the program prints one line for
    each record logged, in the order written, with its stamp and its reference time;
    the line is an error exactly if they are more than two hours apart, to the
    nanosecond.  Nothing is printed for other streams. *)
Theorem c239_lines : forall translation dual junk, three_doubles translation -> four_doubles dual ->
  forall gps gal glo ops files order, wrun translation ops [] = Some files -> Permutation files order -> records_ok (callbacks gps gal glo) ops ->
  (forall k t data, In (Log k t data) ops -> callbacks gps gal glo k <> None -> reasonable t /\ reasonable (logged_toe data)) ->
  exists n, forall fuel, (n <= fuel)%nat -> exists out, main dual junk gps gal glo fuel (reopened dual junk order) = Some out /\
  (forall x, In x out -> callbacks gps gal glo (fst x) <> None) /\
  forall k, callbacks gps gal glo k <> None -> of_key k out = map (fun r => line_for (fst r) (logged_toe (snd r))) (logged k ops).
Proof. exact main_ok. Qed.
Print Assumptions c239_lines.
(** The three streams, and what their records are read as. *)
Theorem c239_streams : forall gps gal glo k, callbacks gps gal glo k = None <-> stream_type k = None.
Proof.
  intros gps gal glo k. destruct (Z.eq_dec k 2) as [-> |]; [split; discriminate|]. destruct (Z.eq_dec k 3) as [-> |]; [split; discriminate|].
  destruct (Z.eq_dec k 4) as [-> |]; [split; discriminate|]. unfold callbacks, GPS_EPH, GAL_EPH, GLO_EPH.
  rewrite !(proj2 (Z.eqb_neq _ _)) by assumption. unfold stream_type. split; [intros _|reflexivity].
  destruct k as [|[[p|[p|p|]|]|[p|[p|p|]|]|]|]; try reflexivity; congruence.
Qed.
Print Assumptions c239_streams.
Theorem c239_types : forall gps gal glo k ts, callbacks gps gal glo k = Some ts -> exists v t, ts = [(t, v)] /\ stream_type k = Some t.
Proof.
  intros gps gal glo k ts. unfold callbacks, GPS_EPH, GAL_EPH, GLO_EPH.
  destruct (Z.eqb_spec k 2) as [-> |]; [intros E; injection E as <-; do 2 eexists; split; reflexivity|].
  destruct (Z.eqb_spec k 3) as [-> |]; [intros E; injection E as <-; do 2 eexists; split; reflexivity|].
  destruct (Z.eqb_spec k 4) as [-> |]; [intros E; injection E as <-; do 2 eexists; split; reflexivity|]. discriminate.
Qed.
Print Assumptions c239_types.
(** Two GLONASS ephemerides, two hours old and a nanosecond more. *)
Definition x_glo (t : Z) : value :=
  Obj ([("gnssID", Num 6); ("sat", Num 14); ("toe", x_utc t 0)] ++ map (fun n => (n, Num 0)) ["iode"; "slot"; "svh"; "sva"; "age"] ++ [("tof", x_utc 0 0)] ++
    map (fun n => (n, Arr [0; 0; 0]%Z)) ["pos"; "vel"; "acc"] ++ map (fun n => (n, Num 0)) ["taun"; "gamn"; "dtaun"]).
Definition x_eph_ops : list wop :=
  [Init 4; Init 1; Log 4 (mkUtc 7300 0) [(tGlo, x_glo 100)]; Log 1 (mkUtc 7300 0) []; Log 4 (mkUtc 7300 1) [(tGlo, x_glo 100)]].
Ltac leaf := first [apply x_utc_ok; cbn; lia | eexists; split; [reflexivity|cbn; lia] | eexists; split; [reflexivity|]; split; [reflexivity|]; repeat constructor; cbn; lia].
Ltac glo_ok := apply has_type_obj; cbn [glo_names glo_members base_members of_type map pick find String.eqb Ascii.eqb Bool.eqb app all_fields]; repeat (split; [leaf|]); exact I.
Lemma x_glo_fits : fits [(tGlo, x_glo 0)] [(tGlo, x_glo 100)].
Proof.
  exists [AGlo]. split; [reflexivity|]. split; [reflexivity|]. split; [apply Forall_cons; [cbn [fst snd]; glo_ok|apply Forall_nil]|].
  split; [apply Forall_cons; [cbn [fst snd]; glo_ok|apply Forall_nil]|]. apply Forall_cons; [cbn; tauto|apply Forall_nil].
Qed.
Lemma x_eph_ok : records_ok (callbacks (Num 0) (Num 0) (x_glo 0)) x_eph_ops.
Proof.
  intros k t data ts I E. cbn in I. destruct I as [I|[I|[I|[I|[I|[]]]]]]; try discriminate I; injection I as <- <- <-; try discriminate E;
    injection E as <-; (split; [split; [unfold normal; cbn; lia|cbn; lia]|exact x_glo_fits]).
Qed.
Lemma x_eph_times : forall k t data, In (Log k t data) x_eph_ops -> callbacks (Num 0) (Num 0) (x_glo 0) k <> None -> reasonable t /\ reasonable (logged_toe data).
Proof.
  intros k t data I N. cbn in I. destruct I as [I|[I|[I|[I|[I|[]]]]]]; try discriminate I; injection I as <- <- <-; try (exfalso; apply N; reflexivity);
    (split; split; [unfold normal; cbn; lia|cbn; lia|unfold normal; cbn; lia|cbn; lia]).
Qed.
Definition x_eph_files : list wstream := Eval vm_compute in match wrun tr0 x_eph_ops [] with Some f => f | None => [] end.
Example c239_case : records_ok (callbacks (Num 0) (Num 0) (x_glo 0)) x_eph_ops /\ wrun tr0 x_eph_ops [] = Some x_eph_files /\
  main du0 [] (Num 0) (Num 0) (x_glo 0) 9 (reopened du0 [] x_eph_files) =
    Some [(4%Z, Usual (mkUtc 7300 0) (mkUtc 100 0)); (4%Z, Unusual (mkUtc 7300 1) (mkUtc 100 0))] /\
  exists n, forall fuel, (n <= fuel)%nat -> exists out, main du0 [] (Num 0) (Num 0) (x_glo 0) fuel (reopened du0 [] x_eph_files) = Some out /\ List.length (of_key 4 out) = 2%nat.
Proof.
  split; [exact x_eph_ok|]. split; [vm_compute; reflexivity|]. split; [vm_compute; reflexivity|].
  destruct (c239_lines tr0 du0 [] tr0_ok du0_ok (Num 0) (Num 0) (x_glo 0) x_eph_ops x_eph_files x_eph_files) as (n & H);
    [vm_compute; reflexivity|apply Permutation_refl|exact x_eph_ok|exact x_eph_times|].
  exists n. intros fuel L. destruct (H fuel L) as (out & E & _ & K). exists out. split; [exact E|]. rewrite K by discriminate. reflexivity.
Qed.

(** C240, full statement (false of the code): what gather_ephemeris has checked and
    logged, verify_ephemeris finds usual and post_process uses.  The clock is read
    twice: the record is stamped with the first time and checked with the second. *)
Theorem c240_accepted_refuted : exists ms clock log x toe, GatOriginProofs.session GpsProps.junk0 GatCaseProofs.make ms clock log /\
  Forall (fun p => (0 <= instant (snd p) - instant (fst p) <= 1)%Z) clock /\
  In x log /\ GatProps.reference x = Some toe /\ line_for (GatProps.stamp x) toe = Unusual (GatProps.stamp x) toe /\
  GatModel.verify (GatProps.stamp x) toe = Some false.
Proof.
  exists GatCaseProofs.glo_log, (repeat (mkUtc 1586408399 999999999, mkUtc 1586408400 0) 5).
  destruct (GatCaseProofs.run_log GatCaseProofs.glo_log (repeat (mkUtc 1586408399 999999999, mkUtc 1586408400 0) 5)) as [log|] eqn:R; [|vm_compute in R; discriminate R].
  exists log. pose proof (GatCaseProofs.run_session _ _ _ R) as S. vm_compute in R. injection R as <-. eexists. eexists. split; [exact S|].
  split; [repeat (apply Forall_cons; [vm_compute; split; discriminate|]); apply Forall_nil|]. split; [left; reflexivity|]. split; [reflexivity|].
  split; vm_compute; reflexivity.
Qed.
Print Assumptions c240_accepted_refuted.
(** Missing for the full statement: records for which the two hours end between the
    two readings of the clock.  The stamp is off by at most the time between them. *)
Theorem c240_accepted_partial : forall junk mk ms clock log raws x toe,
  Bytes.bytes_ok junk -> List.length junk = 30%nat -> GatOriginProofs.makers_ok mk -> GatOriginProofs.clock_ok clock ->
  Forall UbxSpec.msg_ok ms -> Forall GatOriginProofs.readable ms -> GatSpec.measured ms raws -> Forall GatProofs.small_raw raws -> GatOriginProofs.session junk mk ms clock log ->
  In x log -> GatProps.reference x = Some toe ->
  exists check, In (GatProps.stamp x, check) clock /\ (Z.abs (instant (GatProps.stamp x) - instant toe) <= two_hours_ns + Z.abs (instant check - instant (GatProps.stamp x)))%Z /\
  (check = GatProps.stamp x \/ (instant toe <= instant (GatProps.stamp x) <= instant check)%Z -> line_for (GatProps.stamp x) toe = Usual (GatProps.stamp x) toe).
Proof.
  intros junk mk ms clock log raws x toe Hj Lj MK CL MO RD ME SR SE I R.
  destruct (GatProps.c177_logged junk mk ms clock log raws x toe Hj Lj MK CL MO RD ME SR SE I R) as (check & C & H). exists check. split; [exact C|]. unfold two_hours_ns. split; [lia|].
  intros K. unfold line_for, two_hours_ns. destruct (Z.ltb_spec (7200 * 1000000000) (Z.abs (instant (GatProps.stamp x) - instant toe))) as [L|L]; [|reflexivity].
  exfalso. destruct K as [-> |K]; lia.
Qed.
Print Assumptions c240_accepted_partial.
Definition x_now : utc * utc := (mkUtc 1586415600 0, mkUtc 1586415601 0).
Example c240_case : exists log x toe, GatOriginProofs.clock_ok (repeat x_now 5) /\ GatOriginProofs.session GpsProps.junk0 GatCaseProofs.make GatCaseProofs.glo_log (repeat x_now 5) log /\
  In x log /\ GatProps.reference x = Some toe /\ line_for (GatProps.stamp x) toe = Usual (GatProps.stamp x) toe.
Proof.
  destruct (GatCaseProofs.run_log GatCaseProofs.glo_log (repeat x_now 5)) as [log|] eqn:R; [|vm_compute in R; discriminate R].
  exists log. pose proof (GatCaseProofs.run_session _ _ _ R) as S. vm_compute in R. injection R as <-. eexists. eexists.
  split; [apply GatCaseProofs.near_ok; split; [unfold normal; cbn; lia|cbn; lia]|]. split; [exact S|]. split; [left; reflexivity|]. split; [reflexivity|]. vm_compute. reflexivity.
Qed.
