(** Property theorems about the log codec and the declared layout (C29, C30,
    C67, C68).  The arithmetic of dual quaternions is a parameter: any function
    [translation] giving three doubles and any function [dual] giving four. *)
From Coq Require Import String ZArith NArith List Bool Lia.
From Verif Require Import SerializeModel SerializeSpec SerializeProofs.
Import ListNotations.
Local Open Scope string_scope.
Local Open Scope list_scope.
Local Open Scope nat_scope.

Definition three_doubles (f : list Z -> list Z -> list Z) : Prop := forall a b, length (f a b) = 3 /\ Forall (in_range FP64) (f a b).
Definition four_doubles (f : list Z -> list Z -> list Z) : Prop := forall a b, length (f a b) = 4 /\ Forall (in_range FP64) (f a b).
Definition tr0 (a b : list Z) : list Z := [0; 0; 0]%Z.
Definition du0 (a b : list Z) : list Z := [0; 0; 0; 0]%Z.
Lemma tr0_ok : three_doubles tr0.
Proof. intros a b. split; [reflexivity|]. repeat constructor; cbn; lia. Qed.
Lemma du0_ok : four_doubles du0.
Proof. intros a b. split; [reflexivity|]. repeat constructor; cbn; lia. Qed.

(** C29: every serialised member is read back, and exactly the bytes written are
    consumed. *)
Theorem c29_round_trip : forall translation dual junk, three_doubles translation -> four_doubles dual ->
  forall a v o r, has_type (arg_ty a) v -> has_type (arg_ty a) o -> same_size (arg_ty a) v o ->
  exists o', des dual junk (arg_ty a) o (mkStream (ser translation (arg_ty a) v ++ r) false) = (o', mkStream r false) /\
    copy_of translation dual (arg_ty a) o' v /\ has_type (arg_ty a) o'.
Proof. intros tr du junk T D a. exact (round_trip tr du junk T D (arg_ty a) (arg_wf a)). Qed.
Print Assumptions c29_round_trip.

(** Several values written by one call and read by one call. *)
Theorem c29_record_round_trip : forall translation dual junk, three_doubles translation -> four_doubles dual ->
  forall (args : list arg) vs os r, let ts := map arg_ty args in length vs = length ts -> length os = length ts ->
  Forall (fun tv => has_type (fst tv) (snd tv)) (combine ts vs) -> Forall (fun tv => has_type (fst tv) (snd tv)) (combine ts os) ->
  Forall (fun x => same_size (fst x) (fst (snd x)) (snd (snd x))) (combine ts (combine vs os)) ->
  exists os', read_all dual junk (combine ts os) (mkStream (log_all translation (combine ts vs) ++ r) false) = (os', mkStream r false) /\
    length os' = length ts /\ Forall (fun x => copy_of translation dual (fst x) (fst (snd x)) (snd (snd x))) (combine ts (combine os' vs)).
Proof.
  intros tr du junk T D args vs os r ts L1 L2.
  assert (W : Forall wf_ty ts) by (unfold ts; apply Forall_forall; intros t I; apply in_map_iff in I as (a & <- & _); apply arg_wf).
  exact (fun A B C => round_trip_all tr du junk T D ts vs os r L1 L2 W A B C).
Qed.
Print Assumptions c29_record_round_trip.

(** Members which the class does not list keep the value they had. *)
Theorem c29_unlisted_kept : forall dual junk fs m s n, ~ In n (map fst fs) -> get n (fst (des dual junk (Struct fs) (Obj m) s)) = get n (Obj m).
Proof. intros du junk fs m s n. rewrite des_struct. exact (des_fields_other du junk fs m s n). Qed.
Print Assumptions c29_unlisted_kept.
Example c29_unlisted_case : arg_ty AGps = Struct (pick gps_members gps_names) /\ ~ In "collected_subframes" (map fst (pick gps_members gps_names)).
Proof. split; [reflexivity|]. vm_compute. intuition discriminate. Qed.

Definition x_utc (s n : Z) : value := Obj [("sec", Num s); ("nsec", Num n)].
Lemma x_utc_ok s n : in_range INT64 s -> in_range INT64 n -> has_type tUTC (x_utc s n).
Proof. intros A B. apply has_type_obj. cbn [pick of_type map find String.eqb Ascii.eqb Bool.eqb app all_fields]. split; [exists s|split; [exists n|exact I]]; auto. Qed.
Definition x_imu : value := Obj [("t", x_utc 1600000000 5); ("accel", Arr [0x3FF0000000000000; 0x7FF8000000000001; 0]%Z); ("gyro", Arr [1; 2; 3]%Z)].
Definition x_imu0 : value := Obj [("t", x_utc 0 0); ("accel", Arr [0; 0; 0]%Z); ("gyro", Arr [0; 0; 0]%Z)].
Ltac imu_ok := apply has_type_obj; cbn [imu_members pick find String.eqb Ascii.eqb Bool.eqb app all_fields];
  split; [apply x_utc_ok; cbn; lia|]; split; [eexists; split; [reflexivity|]; split; [reflexivity|]; repeat constructor; cbn; lia|];
  split; [eexists; split; [reflexivity|]; split; [reflexivity|]; repeat constructor; cbn; lia|exact I].
Example c29_case : three_doubles tr0 /\ four_doubles du0 /\ has_type (arg_ty AImu) x_imu /\ has_type (arg_ty AImu) x_imu0 /\
  same_size (arg_ty AImu) x_imu x_imu0 /\ fst (des du0 [] (arg_ty AImu) x_imu0 (mkStream (ser tr0 (arg_ty AImu) x_imu) false)) = x_imu.
Proof.
  split; [exact tr0_ok|]. split; [exact du0_ok|]. split; [imu_ok|]. split; [imu_ok|]. split; [cbn; tauto|]. vm_compute. reflexivity.
Qed.

(** C67, full statement (false of the code): an object read back into a fresh object
    equals the logged one in every member.  Ephemerides lose the members that say
    which parts of the message have been received. *)
Theorem c67_members_lost_refuted : exists (a : arg) (decl : list (string * ty)) (v o : value) (n : string),
  In (a, decl) [(AGps, gps_members); (AGal, gal_members); (AGlo, glo_members)] /\ In n (map fst decl) /\
  Forall (fun nu => has_type (snd nu) (get (fst nu) v)) decl /\ Forall (fun nu => has_type (snd nu) (get (fst nu) o)) decl /\
  forall translation dual junk r, get n (fst (des dual junk (arg_ty a) o (mkStream (ser translation (arg_ty a) v ++ r) false))) <> get n v.
Proof.
  set (z := map (fun nu => (fst nu, match snd nu with Prim _ => Num 0 | Struct _ => x_utc 0 0 | _ => Arr [0; 0; 0]%Z end)) gps_members).
  exists AGps, gps_members, (Obj (put "collected_subframes" (Num 7) z)), (Obj z), "collected_subframes".
  split; [left; reflexivity|]. split; [vm_compute; tauto|].
  split. { unfold z. cbn [gps_members kepler_members base_members kepler_doubles of_type map app fst snd put String.eqb Ascii.eqb Bool.eqb].
    repeat (apply Forall_cons; [cbn [fst snd get find String.eqb Ascii.eqb Bool.eqb];
      first [apply x_utc_ok; cbn; lia | eexists; split; [reflexivity|cbn; lia]]|]). apply Forall_nil. }
  split. { unfold z. cbn [gps_members kepler_members base_members kepler_doubles of_type map app fst snd put String.eqb Ascii.eqb Bool.eqb].
    repeat (apply Forall_cons; [cbn [fst snd get find String.eqb Ascii.eqb Bool.eqb];
      first [apply x_utc_ok; cbn; lia | eexists; split; [reflexivity|cbn; lia]]|]). apply Forall_nil. }
  intros tr du junk r. change (arg_ty AGps) with (Struct (pick gps_members gps_names)). rewrite des_struct.
  rewrite des_fields_other; [discriminate|]. vm_compute. intuition discriminate.
Qed.
Print Assumptions c67_members_lost_refuted.

(** Proved: the measurement classes come back whole. *)
Theorem c67_measurements_partial : forall translation dual junk, three_doubles translation -> four_doubles dual ->
  forall a decl v o r, In (a, decl) [(AImu, imu_members); (AObs, obs_members)] -> has_type (arg_ty a) v -> has_type (arg_ty a) o ->
  exists o', des dual junk (arg_ty a) o (mkStream (ser translation (arg_ty a) v ++ r) false) = (o', mkStream r false) /\
    forall n, In n (map fst decl) -> n <> "t" -> get n o' = get n v /\ get "sec" (get "t" o') = get "sec" (get "t" v) /\
      get "nsec" (get "t" o') = get "nsec" (get "t" v).
Proof.
  intros tr du junk T D a decl v o r I Tv To.
  assert (S : same_size (arg_ty a) v o) by (apply no_dyn_same; destruct I as [I|[I|[]]]; injection I as <- <-; cbn; tauto).
  destruct (round_trip tr du junk T D (arg_ty a) (arg_wf a) v o r Tv To S) as (o' & E & C & _). exists o'. split; [exact E|].
  intros n In_n Nt. destruct I as [I|[I|[]]]; injection I as <- <-; cbn in C; cbn in In_n; intuition (subst; try assumption; congruence).
Qed.
Print Assumptions c67_measurements_partial.

Example c67_case : In (AImu, imu_members) [(AImu, imu_members); (AObs, obs_members)] /\ has_type (arg_ty AImu) x_imu /\ has_type (arg_ty AImu) x_imu0 /\
  In "gyro" (map fst imu_members).
Proof. split; [left; reflexivity|]. split; [imu_ok|]. split; [imu_ok|]. vm_compute. tauto. Qed.

(** C30: for streams of scalars, fixed vectors, times, measurements, quaternions,
    poses and jets, the Python reader shows every logged record. *)
Theorem c30_layout_partial : forall translation, three_doubles translation -> forall args (recs : list (value * list value)), plain_args args ->
  Forall (fun r => has_type tUTC (fst r) /\ Forall2 (fun na v => has_type (arg_ty (snd na)) v) args (snd r)) recs ->
  exists y d, makeFormat args = Some y /\ make_dtype y = Some d /\
    fromfile d (concat (map (fun r => record_bytes translation (fst r) args (snd r)) recs)) = map (fun r => p_record translation (fst r) args (snd r)) recs.
Proof. exact python_reads. Qed.
Print Assumptions c30_layout_partial.

Example c30_case : plain_args [("imu", AImu); ("clk", AMat FP64 2 1)] /\
  Forall (fun r : value * list value => has_type tUTC (fst r) /\ Forall2 (fun na v => has_type (arg_ty (snd na)) v) [("imu", AImu); ("clk", AMat FP64 2 1)] (snd r))
    [(x_utc 1600000000 7, [x_imu; Arr [1; 2]%Z])].
Proof.
  split.
  - split; [discriminate|]. split; [repeat constructor; cbn; tauto|]. split; [repeat constructor; cbn; intuition discriminate|].
    repeat constructor; cbn; intuition discriminate.
  - constructor; [|constructor]. split; [apply x_utc_ok; cbn; lia|]. constructor; [imu_ok|]. constructor; [|constructor].
    eexists. split; [reflexivity|]. split; [reflexivity|]. repeat constructor; cbn; lia.
Qed.

(** C30, full statement (false of the code): the declared layout describes the
    record for every loggable type.  For the ephemerides the declared item is longer
    than the record by 4, 21 and 17 bytes, whatever is logged. *)
Theorem c30_ephemeris_refuted : forall translation, three_doubles translation -> forall a extra,
  In (a, extra) [(AGps, 4); (AGal, 21); (AGlo, 17)] -> exists y d, makeFormat [("eph", a)] = Some y /\ make_dtype y = Some d /\
  forall stamp v, has_type tUTC stamp -> has_type (arg_ty a) v -> itemsize d = length (record_bytes translation stamp [("eph", a)] [v]) + extra.
Proof.
  intros tr T a extra I. cbn in I.
  destruct I as [I|[I|[I|[]]]]; injection I as <- <-; (eexists; eexists; split; [reflexivity|]; split; [vm_compute; reflexivity|];
    intros stamp v Ts Tv; rewrite (one_record_size tr T); [vm_compute; reflexivity|vm_compute; tauto|assumption|assumption]).
Qed.
Print Assumptions c30_ephemeris_refuted.

(** So two logged ephemerides are shown as one. *)
Theorem c30_ephemeris_count_refuted : forall translation, three_doubles translation -> forall a,
  In a [AGps; AGal; AGlo] -> exists y d, makeFormat [("eph", a)] = Some y /\ make_dtype y = Some d /\
  forall t1 v1 t2 v2, has_type tUTC t1 -> has_type tUTC t2 -> has_type (arg_ty a) v1 -> has_type (arg_ty a) v2 ->
    length (fromfile d (record_bytes translation t1 [("eph", a)] [v1] ++ record_bytes translation t2 [("eph", a)] [v2])) = 1.
Proof.
  intros tr T a I. cbn in I.
  destruct I as [I|[I|[I|[]]]]; subst a; (eexists; eexists; split; [reflexivity|]; split; [vm_compute; reflexivity|];
    intros t1 v1 t2 v2 A B C D; unfold fromfile; rewrite map_length, seq_length, app_length;
    rewrite !(one_record_size tr T); [vm_compute; reflexivity|vm_compute; tauto|assumption|assumption|vm_compute; tauto|assumption|assumption]).
Qed.
Print Assumptions c30_ephemeris_count_refuted.

(** A matrix is shown transposed. *)
Theorem c30_matrix_refuted : exists stamp l, has_type tUTC stamp /\ has_type (arg_ty (AMat FP64 2 2)) (Arr l) /\
  forall translation, exists y d, makeFormat [("m", AMat FP64 2 2)] = Some y /\ make_dtype y = Some d /\
    fromfile d (record_bytes translation stamp [("m", AMat FP64 2 2)] [Arr l]) <> [p_record translation stamp [("m", AMat FP64 2 2)] [Arr l]].
Proof.
  exists (x_utc 0 0), [1; 2; 3; 4]%Z. split; [apply x_utc_ok; cbn; lia|]. split.
  - eexists. split; [reflexivity|]. split; [reflexivity|]. repeat constructor; cbn; lia.
  - intros tr. eexists; eexists. split; [reflexivity|]. split; [vm_compute; reflexivity|]. vm_compute. discriminate.
Qed.
Print Assumptions c30_matrix_refuted.

(** A vector of dynamic size is declared empty. *)
Theorem c30_dynamic_refuted : exists stamp l, has_type tUTC stamp /\ has_type (arg_ty (ADyn FP64)) (Arr l) /\
  forall translation, exists y d, makeFormat [("m", ADyn FP64)] = Some y /\ make_dtype y = Some d /\
    fromfile d (record_bytes translation stamp [("m", ADyn FP64)] [Arr l]) <> [p_record translation stamp [("m", ADyn FP64)] [Arr l]].
Proof.
  exists (x_utc 0 0), [1; 2]%Z. split; [apply x_utc_ok; cbn; lia|]. split.
  - eexists. split; [reflexivity|]. repeat constructor; cbn; lia.
  - intros tr. eexists; eexists. split; [reflexivity|]. split; [vm_compute; reflexivity|]. vm_compute. discriminate.
Qed.
Print Assumptions c30_dynamic_refuted.

(** C68, full statement (false of the code): the log of estimates written by
    tools/post_process.cxx:209-212 can be read back.  Lines 224-226 write the
    covariance after the eight declared values, so the declared item is shorter than
    the record, whatever the size of the covariance. *)
Definition estimate_args : list (string * arg) :=
  [("pose", ADQuat); ("vel", AMat FP64 3 1); ("omg", AMat FP64 3 1); ("acc", AMat FP64 3 1); ("p_ecef", AMat FP64 3 1); ("gps_clk", AMat FP64 2 1);
   ("gal_clk", AMat FP64 2 1); ("glo_clk", AMat FP64 2 1)].
Theorem c68_estimate_refuted : forall translation, three_doubles translation -> exists y d, makeFormat estimate_args = Some y /\ make_dtype y = Some d /\
  forall stamp vals (cov : list N), has_type tUTC stamp -> Forall2 (fun na v => has_type (arg_ty (snd na)) v) estimate_args vals -> cov <> [] ->
    itemsize d < length (record_bytes translation stamp estimate_args vals ++ cov).
Proof.
  intros tr T.
  destruct (stream_layout estimate_args) as (y & E1 & E2).
  { split; [discriminate|]. split; [repeat constructor; cbn; tauto|]. split; [repeat constructor; cbn; intuition discriminate|].
    repeat constructor; cbn; intuition discriminate. }
  exists y, (stream_dtype estimate_args). split; [exact E1|]. split; [exact E2|]. intros stamp vals cov Ts F Nc.
  destruct (stream_reads tr T estimate_args stamp vals) as (L & _); [repeat constructor; cbn; tauto|assumption|assumption|].
  rewrite app_length, <- L. destruct cov; [congruence|]. cbn [length]. lia.
Qed.
Print Assumptions c68_estimate_refuted.
(** Without the covariance the estimates can be read back ([c30_layout_partial]). *)
Theorem c68_without_covariance_partial : forall translation, three_doubles translation -> forall (recs : list (value * list value)),
  Forall (fun r => has_type tUTC (fst r) /\ Forall2 (fun na v => has_type (arg_ty (snd na)) v) estimate_args (snd r)) recs ->
  exists y d, makeFormat estimate_args = Some y /\ make_dtype y = Some d /\
    fromfile d (concat (map (fun r => record_bytes translation (fst r) estimate_args (snd r)) recs)) = map (fun r => p_record translation (fst r) estimate_args (snd r)) recs.
Proof.
  intros tr T recs F. apply (python_reads tr T estimate_args recs); [|exact F].
  split; [discriminate|]. split; [repeat constructor; cbn; tauto|]. split; [repeat constructor; cbn; intuition discriminate|].
  repeat constructor; cbn; intuition discriminate.
Qed.
Print Assumptions c68_without_covariance_partial.
Example c68_case : has_type tUTC (x_utc 1600000000 0) /\ Forall2 (fun na v => has_type (arg_ty (snd na)) v) estimate_args
  [Obj [("r_", Obj [("arr_", Arr [one; 0; 0; 0]%Z)]); ("d_", Obj [("arr_", Arr [0; 0; 0; 0]%Z)])]; Arr [1; 2; 3]%Z; Arr [0; 0; 0]%Z; Arr [0; 0; 0]%Z;
   Arr [4; 5; 6]%Z; Arr [0; 0]%Z; Arr [0; 0]%Z; Arr [0; 0]%Z].
Proof.
  split; [apply x_utc_ok; cbn; lia|]. constructor.
  - eexists; eexists. split; [reflexivity|]. split; [reflexivity|]. split; [reflexivity|].
    split; repeat (apply Forall_cons; [split; vm_compute; congruence|]); apply Forall_nil.
  - repeat (apply Forall2_cons; [eexists; split; [reflexivity|]; split; [reflexivity|]; repeat (apply Forall_cons; [cbn; lia|]); apply Forall_nil|]).
    apply Forall2_nil.
Qed.
