(** Property theorems about post-processing a log (C184 - C186). *)
From Coq Require Import String ZArith List Bool Lia Permutation.
From Verif Require Import SerializeModel SerializeSpec SerializeProps UtcTimeModel UtcTimeSpec Float64 QuantizedModel LogModel LogSpec LogProps EstModel GatModel GatProofs PostModel PostSpec PostProofs.
Import ListNotations.
Local Open Scope list_scope.

(** C184, full statement (false of the code): post_process replays the first 45
    seconds of the log to the filter.  The maintenance callback counts from the
    time of its initial state, which is never set; the first record of the log ends
    the reading, before it is delivered: of every log. *)
Theorem c184_nothing : forall translation dual junk, three_doubles translation -> four_doubles dual ->
  forall X (blank x : X) fuel cbs ops files order cut log_start,
  wrun translation ops [] = Some files -> Permutation files order -> records_ok cbs ops -> far_from_overflow log_start ->
  (forall k t data, In (Log k t data) ops -> (46 <= sec t < 2 ^ 60)%Z /\ (instant log_start <= instant t)%Z) ->
  match LogModel.read dual junk (S fuel) cbs (opened dual junk cut order) [maintenance (start_state blank x) log_start] with
  | Finished tr | Stopped tr => messages tr = []
  | _ => False
  end.
Proof.
  intros translation dual junk T D X blank x fuel cbs ops files order cut log_start W P R Fs H.
  destruct (nothing_read translation dual junk T D blank x fuel cbs ops files order cut log_start W P R Fs H) as [-> |(t & ->)]; reflexivity.
Qed.
Print Assumptions c184_nothing.
(** a log of one second, subscribed to, in 2020: everything it holds lies within
    45 seconds of its start, and nothing is delivered *)
Definition y_ops : list wop := [Init 5; Log 5 (mkUtc 1600000000 5) (x_pair 7 8); Log 5 (mkUtc 1600000001 0) (x_pair (-3) 4)]%Z.
Example c184_case : records_ok x_cbs y_ops /\ far_from_overflow (mkUtc 1600000000 0) /\ x_cbs 5 <> None /\
  (forall k t data, In (Log k t data) y_ops -> (46 <= sec t < 2 ^ 60)%Z /\ (0 <= instant t - instant (mkUtc 1600000000 0) <= 45 * 1000000000)%Z) /\
  exists files, wrun tr0 y_ops [] = Some files /\
    LogModel.read du0 [] 20 x_cbs (reopened du0 [] files) [maintenance (start_state tt tt) (mkUtc 1600000000 0)] = Stopped [Maint 0 (mkUtc 1600000000 5)].
Proof.
  split; [|split; [|split; [|split]]].
  - intros k t data ts I E. apply (x_records k (if (sec t =? 1600000000)%Z then x_t 10 5 else x_t 11 0) data ts) in E.
    + destruct E as [_ E]. split; [|exact E]. cbn in I. destruct I as [I|[I|[I|[]]]]; [discriminate| |]; injection I as <- <- <-; split; unfold normal; cbn; lia.
    + cbn in I. destruct I as [I|[I|[I|[]]]]; [discriminate| |]; injection I as <- <- <-; cbn; tauto.
  - split; [unfold normal; cbn; lia|cbn; lia].
  - discriminate.
  - intros k t data I. cbn in I. destruct I as [I|[I|[I|[]]]]; [discriminate| |]; injection I as <- <- <-; unfold instant; cbn; lia.
  - eexists. split; [vm_compute; reflexivity|]. vm_compute. reflexivity.
Qed.
Theorem c184_start_refuted : exists ops files cbs k log_start, wrun tr0 ops [] = Some files /\ records_ok cbs ops /\ cbs k <> None /\ length (logged k ops) = 2%nat /\
  (forall k t data, In (Log k t data) ops -> (0 <= instant t - instant log_start <= 45 * 1000000000)%Z) /\
  match LogModel.read du0 [] 20 cbs (reopened du0 [] files) [maintenance (start_state tt tt) log_start] with Stopped tr => delivered k tr = [] | _ => False end.
Proof.
  destruct c184_case as (R & _ & N & H & files & W & E). exists y_ops, files, x_cbs, 5%Z, (mkUtc 1600000000 0).
  split; [exact W|]. split; [exact R|]. split; [exact N|]. split; [reflexivity|]. split; [intros k t data I; exact (proj2 (H k t data I))|].
  rewrite E. reflexivity.
Qed.
Print Assumptions c184_start_refuted.
(** What holds: the callback goes on for exactly 45 seconds from the time of the
    initial state it is given.  Missing: that this is the time at which the log starts. *)
Theorem c184_limit_partial : forall t0 t, sane t0 -> sane t -> keep_going t0 t = (instant t - instant t0 <=? 45 * 1000000000)%Z.
Proof. exact keep_ok. Qed.
Print Assumptions c184_limit_partial.
Example c184_limit_case : sane (mkUtc 1600000000 5) /\ sane (mkUtc 1600000045 5) /\ sane (mkUtc 1600000045 6) /\
  keep_going (mkUtc 1600000000 5) (mkUtc 1600000045 5) = true /\ keep_going (mkUtc 1600000000 5) (mkUtc 1600000045 6) = false.
Proof.
  assert (A : sane (mkUtc 1600000000 5)) by (split; [unfold normal; cbn; lia|cbn; lia]).
  assert (B : sane (mkUtc 1600000045 5)) by (split; [unfold normal; cbn; lia|cbn; lia]).
  assert (C : sane (mkUtc 1600000045 6)) by (split; [unfold normal; cbn; lia|cbn; lia]).
  split; [exact A|]. split; [exact B|]. split; [exact C|]. rewrite !keep_ok by assumption. split; reflexivity.
Qed.

(** C185, full statement (false of the code): every observation of the log reaches
    the filter.  Of two epochs ten milliseconds apart the second is dropped. *)
Theorem c185_dropped_refuted : exists (O : Type) (time : O -> utc) l x batches,
  (forall y, In y l -> since_1970 (fst y) /\ fst y = time (snd y)) /\ In x l /\
  bundles time l [] = Some batches /\ ~ In (snd x) (concat (map snd batches)).
Proof.
  exists utc, (fun t => t), [(mkUtc 1600000000 0, mkUtc 1600000000 0); (mkUtc 1600000000 10000000, mkUtc 1600000000 10000000)],
    (mkUtc 1600000000 10000000, mkUtc 1600000000 10000000), [(mkUtc 1600000000 10000000, [mkUtc 1600000000 0])].
  split; [intros y [<-|[<-|[]]]; split; try reflexivity; split; unfold normal; cbn; lia|]. split; [right; left; reflexivity|].
  split; [vm_compute; reflexivity|]. cbn. intros [E|[]]. discriminate.
Qed.
Print Assumptions c185_dropped_refuted.
(** What holds: the records are cut wherever more than ten milliseconds lie between
    two stamps; each piece gives one measurement, at the stamp of its last record,
    of the observations that have the time of its first, in order; the last piece
    too.  [d] is any pair (pieces are not empty).  Missing: the other observations of
    a piece. *)
Theorem c185_batches_partial : forall O (time : O -> utc) l d, Forall (fun y => since_1970 (fst y)) l ->
  exists bs, cut_at_gaps bs l /\ concat bs = l /\ bundles time l [] = Some (map (fun b => batch_of time b d) bs).
Proof.
  intros O time l d F. destruct (cut_exists time l) as [bs C]. exists bs. split; [exact C|]. split; [exact (cut_concat bs l C)|].
  exact (batches time bs l d C F).
Qed.
Print Assumptions c185_batches_partial.
(** so nothing is dropped if the observations between two gaps are of one time *)
Theorem c185_all_partial : forall O (time : O -> utc) bs l (d : utc * O), Forall (fun y => since_1970 (fst y)) l -> cut_at_gaps bs l ->
  (forall b x y, In b bs -> In x b -> In y b -> time (snd x) = time (snd y)) ->
  exists batches, bundles time l [] = Some batches /\ map snd batches = map (map snd) bs /\ concat (map snd batches) = map snd l.
Proof.
  intros O time bs l d F C U. exists (map (fun b => batch_of time b d) bs). split; [exact (batches time bs l d C F)|].
  assert (E : map snd (map (fun b => batch_of time b d) bs) = map (map snd) bs).
  { rewrite map_map. apply map_ext_in. intros b I. unfold batch_of. cbn [snd]. specialize (U b).
    destruct b as [|f b]; [reflexivity|]. unfold alike. cbn [map].
    assert (V : forall q, (forall y, In y q -> In y (f :: b)) -> filter (fun o => same_time (time (snd f)) (time o)) (map snd q) = map snd q).
    { induction q as [|y q IH]; intros S; [reflexivity|]. cbn [map filter].
      assert (Q : same_time (time (snd f)) (time (snd y)) = true)
        by (rewrite (U f y I (or_introl eq_refl) (S y (or_introl eq_refl))); unfold same_time; rewrite !Z.eqb_refl; reflexivity).
      rewrite Q. f_equal. apply IH. intros z Iz. apply S. right. exact Iz. }
    exact (V (f :: b) (fun y H => H)). }
  split; [exact E|]. rewrite E, concat_map_snd. rewrite (cut_concat bs l C). reflexivity.
Qed.
Print Assumptions c185_all_partial.
(** two epochs of two and of one observation, 200 ms apart *)
Definition z_obs : list (utc * (Z * utc)) :=
  [(mkUtc 1600000000 300, (1, mkUtc 1600000000 0)); (mkUtc 1600000000 400, (2, mkUtc 1600000000 0)); (mkUtc 1600000000 200000300, (3, mkUtc 1600000000 200000000))]%Z.
Example c185_case : Forall (fun y => since_1970 (fst y)) z_obs /\
  cut_at_gaps [firstn 2 z_obs; skipn 2 z_obs] z_obs /\
  option_map (map (fun b => map fst (snd b))) (bundles snd z_obs []) = Some [[1; 2]; [3]]%Z.
Proof.
  split; [repeat constructor; unfold normal; cbn; lia|]. split; [|vm_compute; reflexivity].
  apply (ca_more [nth 0 z_obs (mkUtc 0 0, (0%Z, mkUtc 0 0))] (nth 1 z_obs (mkUtc 0 0, (0%Z, mkUtc 0 0)))).
  - apply cl_more; [unfold instant, ms10; cbn; lia|]. apply cl_one.
  - unfold instant, ms10. cbn. lia.
  - apply ca_last, cl_one.
Qed.

(** C186: of the ephemerides of the log exactly those whose record is stamped within
    two hours of their time of ephemeris reach the filter, in order. *)
Theorem c186_loaded : forall E (toe : E -> utc) l, Forall (fun x => sane (fst x) /\ sane (toe (snd x))) l ->
  load toe l = Some (map snd (filter (fun x => Z.abs (instant (fst x) - instant (toe (snd x))) <=? 7200 * 1000000000)%Z l)).
Proof. intros E toe. exact (load_ok toe). Qed.
Print Assumptions c186_loaded.
Example c186_case : Forall (fun x => sane (fst x) /\ sane (snd x)) [(mkUtc 7300 0, mkUtc 100 0); (mkUtc 7300 1, mkUtc 100 0)]%Z /\
  load (fun t => t) [(mkUtc 7300 0, mkUtc 100 0); (mkUtc 7300 1, mkUtc 100 0)]%Z = Some [mkUtc 100 0].
Proof. split; [repeat constructor; unfold normal; cbn; lia|]. vm_compute. reflexivity. Qed.
