(** C34, C73-C78: directories of logs. *)
From Coq Require Import String ZArith NArith List Bool Lia.
From Verif Require Import UtcTimeModel UtcTimeSpec LogNameModel LogNameSpec LogNameProofs LogDirModel LogDirSpec LogDirProofs.
Import ListNotations.
Local Open Scope Z_scope.

(** Two logs of a directory, the second amending the first. *)
Definition x_base : string := "/data/logs".
Definition x_f1 : tm := mkTm 2020 2 29 23 59 59.
Definition x_f2 : tm := mkTm 2020 3 1 0 0 0.
Definition x_d1 : string := "/data/logs/20200229_235959".
Definition x_d2 : string := "/data/logs/20200301_000000".
Definition x_t (z : Z) : utc := mkUtc (1583020799 + z) 500000000.
Definition x_ops1 : list op := [Init 0; Init 1; Rec 0 [1; 2]%N; Rec 1 [3]%N; Rec 0 [4]%N].
Definition x_ops2 : list op := [Init 1; Amends x_d1; Rec 1 [5]%N; Init 5].
Definition x_s1 : fs := Eval vm_compute in match run (x_ops1 ++ [Close (x_t 10)]) (construct x_base x_f1 (x_t 0) []) with Some (_, s) => s | None => [] end.
Definition x_s2 : fs := Eval vm_compute in match run (x_ops2 ++ [Close (x_t 5)]) (construct x_base x_f2 (x_t 1) x_s1) with Some (_, s) => s | None => [] end.
Lemma x_run1 : exists l, run (x_ops1 ++ [Close (x_t 10)]) (construct x_base x_f1 (x_t 0) []) = Some (l, x_s1).
Proof. eexists. vm_compute. reflexivity. Qed.
Lemma x_run2 : exists l, run (x_ops2 ++ [Close (x_t 5)]) (construct x_base x_f2 (x_t 1) x_s1) = Some (l, x_s2).
Proof. eexists. vm_compute. reflexivity. Qed.
Definition x_m1 : manifest := mkMan (x_t 0) (x_t 10) [0; 1] ["IMU_SAMPLE"; "GNSS_OBS"]%string None.
Definition x_m2 : manifest := mkMan (x_t 1) (x_t 5) [1; 5] ["GNSS_OBS"; "TRUTH_POSE"]%string (Some x_d1).
Lemma x_chain : chain x_s2 x_d2 [(x_d2, x_m2); (x_d1, x_m1)].
Proof. eapply chain_more; [reflexivity|reflexivity|reflexivity|]. eapply chain_last; reflexivity. Qed.
Lemma x_proper : Forall proper [(x_d2, x_m2); (x_d1, x_m1)].
Proof.
  apply Forall_cons; [|apply Forall_cons; [|apply Forall_nil]]; (split; [apply plain_ok; intros x E; discriminate E|]; split; [discriminate|]); unfold normal, in64, x_m1, x_m2, x_t; cbn [snd fst m_start m_end sec nsec]; lia.
Qed.

(** ** C34 *)
Theorem c34_newest : forall s d ds fuel, chain s d ds -> Forall proper ds -> (List.length ds <= fuel)%nat ->
  exists r, openLog fuel d s reader0 = Opened r /\
  (forall k p, lookup k (r_streams r) = Some p <-> exists e, newest_with k e ds /\ (p = e ++ "/" ++ logKeyName k ++ ".log")%string) /\ NoDup (map fst (r_streams r)) /\
  earliest (r_start r) (map (fun e => m_start (snd e)) ds) /\ latest (r_end r) (map (fun e => m_end (snd e)) ds) /\ d :: r_amends r = map fst ds.
Proof. exact open_chain. Qed.
Print Assumptions c34_newest.
Theorem c34_python : forall s d ds fuel, chain s d ds -> Forall proper ds ->
  Forall (fun e => py_is_log (fst e) = true /\ m_names (snd e) = map logKeyName (m_keys (snd e))) ds -> (List.length ds <= fuel)%nat ->
  exists fl, get_log_files fuel d s = Opened fl /\ forall k p, lookup k fl = Some p <-> exists e, newest_with k e ds /\ (p = e ++ "/" ++ logKeyName k)%string.
Proof. exact py_open_chain. Qed.
Print Assumptions c34_python.
Definition x_r : reader := Eval vm_compute in match openLog 2 x_d2 x_s2 reader0 with Opened r => r | _ => reader0 end.
Example c34_case : openLog 2 x_d2 x_s2 reader0 = Opened x_r /\ lookup 0 (r_streams x_r) = Some "/data/logs/20200229_235959/IMU_SAMPLE.log"%string /\
  lookup 1 (r_streams x_r) = Some "/data/logs/20200301_000000/GNSS_OBS.log"%string /\ lookup 2 (r_streams x_r) = None /\ r_start x_r = x_t 0 /\ r_end x_r = x_t 10.
Proof. split; [vm_compute; reflexivity|]. split; [reflexivity|]. split; [reflexivity|]. split; [reflexivity|]. split; reflexivity. Qed.
Example c34_meets : exists r, openLog 2 x_d2 x_s2 reader0 = Opened r /\ earliest (r_start r) [x_t 1; x_t 0].
Proof. destruct (c34_newest x_s2 x_d2 _ 2 x_chain x_proper (le_n 2)) as (r & O & _ & _ & E & _). exists r. split; [exact O|exact E]. Qed.
Example c34_python_case : exists fl, get_log_files 2 x_d2 x_s2 = Opened fl /\ lookup 1 fl = Some "/data/logs/20200301_000000/GNSS_OBS"%string.
Proof.
  destruct (c34_python x_s2 x_d2 _ 2 x_chain x_proper) as (fl & O & L); [repeat constructor|apply le_n|]. exists fl. split; [exact O|]. apply L. exists x_d2. split; [|reflexivity].
  exists [], x_m2, [(x_d1, x_m1)]. split; [reflexivity|]. split; [left; reflexivity|]. intros e [].
Qed.

(** ** C73 *)
(** A log amending itself: no number of calls ends the recursion. *)
Theorem c73_cycle_refuted : exists base f start ops l s, Forall adds ops /\ run (ops ++ [Close start]) (construct base f start []) = Some (l, s) /\
  forall fuel r, openLog fuel (join base (log_id f)) s r = Running.
Proof.
  exists x_base, x_f1, (x_t 0), [Init 0; Amends x_d1]. eexists. eexists. split; [repeat constructor|]. split; [reflexivity|].
  change (join x_base (log_id x_f1)) with x_d1. intros fuel. induction fuel as [|n IH]; intros r; [reflexivity|]. cbn [openLog].
  match goal with |- context [find x_d1 ?l] => set (fl := l) in * end. change (find x_d1 fl) with (Some (mkDir (Some (mkMan (x_t 0) (x_t 0) [0] ["IMU_SAMPLE"%string] (Some x_d1))) [("IMU_SAMPLE"%string, [])] [("IMU_SAMPLE"%string, (0, 0))])).
  cbn [d_manifest m_keys m_amends]. apply IH.
Qed.
Print Assumptions c73_cycle_refuted.
(** Missing for the full statement: chains that never end; opening returns for all others. *)
Theorem c73_returns_partial : forall s d, ends s d <-> exists n, forall fuel r, (n <= fuel)%nat -> openLog fuel d s r <> Running.
Proof. intros s d. split; [apply ends_returns|]. intros (n & R). apply (returns_ends s n d reader0). apply R. apply le_n. Qed.
Print Assumptions c73_returns_partial.
Example c73_case : ends x_s2 x_d2.
Proof. eapply ends_more; [reflexivity|reflexivity|reflexivity|]. eapply ends_last; reflexivity. Qed.

(** ** C74 *)
(** Within the same second a new log replaces the one before. *)
Theorem c74_same_second_refuted : exists base f t1 t2 s, nsec t1 <> nsec t2 /\ broken_down (sec t1) f /\ broken_down (sec t2) f /\
  (exists x, find (join base (log_id f)) s = Some x /\ find "IMU_SAMPLE" (d_log x) = Some [1; 2; 4]%N) /\
  find (join base (log_id f)) (snd (construct base f t2 s)) = Some (mkDir None [] []).
Proof.
  exists x_base, x_f1, (mkUtc 1583020799 500000000), (mkUtc 1583020799 700000000), x_s1. split; [discriminate|].
  assert (B : broken_down 1583020799 x_f1) by (split; [unfold valid_tm; cbn; lia|reflexivity]). split; [exact B|]. split; [exact B|]. split; [|reflexivity].
  eexists. split; reflexivity.
Qed.
Print Assumptions c74_same_second_refuted.
(** Missing for the full statement: logs started in the same second.  Logs of every
    other second, in years of four digits, and directories with other names are kept,
    whatever calls follow. *)
Theorem c74_kept_partial : forall base f start sec a n s ops l' s',
  broken_down sec f -> 0 <= year f < 10000 -> id_of a n -> a <> sec -> opened_dirs ops = [] -> run ops (construct base f start s) = Some (l', s') -> find (join base n) s' = find (join base n) s.
Proof. exact other_seconds_kept. Qed.
Print Assumptions c74_kept_partial.
Theorem c74_others_partial : forall base f start s ops l' s' d,
  run ops (construct base f start s) = Some (l', s') -> ~ In d (opened_dirs (Open base f start :: ops)) -> find d s' = find d s.
Proof. exact others_untouched. Qed.
Print Assumptions c74_others_partial.
Example c74_case : find (join x_base "20200229_235959") x_s2 = find (join x_base "20200229_235959") x_s1.
Proof.
  destruct x_run2 as (l & E). apply (c74_kept_partial x_base x_f2 (x_t 1) 1583020800 1583020799 "20200229_235959" x_s1 (x_ops2 ++ [Close (x_t 5)]) l x_s2).
  - split; [unfold valid_tm; cbn; lia|reflexivity].
  - cbn; lia.
  - exists x_f1. split; [split; [unfold valid_tm; cbn; lia|reflexivity]|]. split; [cbn; lia|reflexivity].
  - lia.
  - reflexivity.
  - exact E.
Qed.

(** ** C75 *)
(** Whatever was logged, before close returns the log cannot be opened. *)
Theorem c75_unreadable : forall base f start s ops l' s' fuel, Forall no_close ops -> run ops (construct base f start s) = Some (l', s') ->
  openLog (S fuel) (join base (log_id f)) s' reader0 = Failed.
Proof. exact crash_unreadable. Qed.
Print Assumptions c75_unreadable.
Theorem c75_crash_refuted : exists base f start ops l s, Forall adds ops /\ keys_of ops <> [] /\ bytes_of 0 ops = [1; 2; 4]%N /\ run ops (construct base f start []) = Some (l, s) /\
  forall fuel, openLog (S fuel) (join base (log_id f)) s reader0 = Failed.
Proof.
  destruct (run x_ops1 (construct x_base x_f1 (x_t 0) [])) as [[l s]|] eqn:R; [|vm_compute in R; discriminate R]. exists x_base, x_f1, (x_t 0), x_ops1, l, s.
  split; [repeat constructor|]. split; [discriminate|]. split; [reflexivity|]. split; [exact R|].
  intros fuel. apply (c75_unreadable x_base x_f1 (x_t 0) [] x_ops1 l s fuel); [repeat constructor|exact R].
Qed.
Print Assumptions c75_crash_refuted.
(** Missing for the full statement: crashes before close.  After close every stream
    holds the records logged to it. *)
Theorem c75_closed_partial : forall base f start s ops t l' s',
  Forall adds ops -> NoDup (map logKeyName (keys_of ops)) -> run (ops ++ [Close t]) (construct base f start s) = Some (l', s') ->
  exists x, find (join base (log_id f)) s' = Some x /\ d_manifest x = Some (mkMan start t (keys_of ops) (map logKeyName (keys_of ops)) (amended ops)) /\
  forall k, In k (keys_of ops) -> find (logKeyName k) (d_log x) = Some (bytes_of k ops) /\ find (logKeyName k) (d_yml x) = Some (k, count_of k ops).
Proof. exact closed_log. Qed.
Print Assumptions c75_closed_partial.
Lemma x_names : NoDup (map logKeyName (keys_of x_ops1)).
Proof. cbn. constructor; [intros [E|[]]; discriminate E|]. constructor; [intros []|constructor]. Qed.
Example c75_case : exists x, find x_d1 x_s1 = Some x /\ find "IMU_SAMPLE" (d_log x) = Some [1; 2; 4]%N /\ find "IMU_SAMPLE" (d_yml x) = Some (0, 2).
Proof.
  destruct x_run1 as (l & R). destruct (c75_closed_partial x_base x_f1 (x_t 0) [] x_ops1 (x_t 10) l x_s1 ltac:(repeat constructor) x_names R) as (x & F & _ & K).
  exists x. split; [exact F|]. exact (K 0 (or_introl eq_refl)).
Qed.

(** ** C76 *)
(** After an explicit close the destructor writes the manifest again, with the time of
    the destruction. *)
Theorem c76_destructor_time : forall base f start s ops t now l' s',
  Forall adds ops -> NoDup (map logKeyName (keys_of ops)) -> run (ops ++ [Close t; Destroy now]) (construct base f start s) = Some (l', s') ->
  exists x, find (join base (log_id f)) s' = Some x /\ d_manifest x = Some (mkMan start now (keys_of ops) (map logKeyName (keys_of ops)) (amended ops)).
Proof. exact destroyed_log. Qed.
Print Assumptions c76_destructor_time.
Theorem c76_end_time_refuted : exists base f start ops t now l s x m, Forall adds ops /\ run (ops ++ [Close t; Destroy now]) (construct base f start []) = Some (l, s) /\
  find (join base (log_id f)) s = Some x /\ d_manifest x = Some m /\ m_end m <> t.
Proof.
  destruct (run (x_ops1 ++ [Close (x_t 10); Destroy (x_t 1000)]) (construct x_base x_f1 (x_t 0) [])) as [[l s]|] eqn:R; [|vm_compute in R; discriminate R].
  destruct (c76_destructor_time x_base x_f1 (x_t 0) [] x_ops1 (x_t 10) (x_t 1000) l s ltac:(repeat constructor) x_names R) as (x & F & M).
  exists x_base, x_f1, (x_t 0), x_ops1, (x_t 10), (x_t 1000), l, s, x. eexists. split; [repeat constructor|]. split; [exact R|]. split; [exact F|]. split; [exact M|]. discriminate.
Qed.
Print Assumptions c76_end_time_refuted.
(** Missing for the full statement: that the destructor keeps the end time; until then
    it is the one given to close. *)
Theorem c76_end_time_partial : forall base f start s ops t l' s',
  Forall adds ops -> NoDup (map logKeyName (keys_of ops)) -> run (ops ++ [Close t]) (construct base f start s) = Some (l', s') ->
  exists x m, find (join base (log_id f)) s' = Some x /\ d_manifest x = Some m /\ m_start m = start /\ m_end m = t.
Proof.
  intros base f start s ops t l' s' A N R. destruct (closed_log base f start s ops t l' s' A N R) as (x & F & M & _). exists x. eexists. split; [exact F|]. split; [exact M|]. split; reflexivity.
Qed.
Print Assumptions c76_end_time_partial.
Example c76_partial_case : exists x m, find x_d1 x_s1 = Some x /\ d_manifest x = Some m /\ m_start m = x_t 0 /\ m_end m = x_t 10.
Proof. destruct x_run1 as (l & R). exact (c76_end_time_partial x_base x_f1 (x_t 0) [] x_ops1 (x_t 10) l x_s1 ltac:(repeat constructor) x_names R). Qed.

(** ** C77 *)
(** A log without streams: the manifest has no keys. *)
Theorem c77_empty_refuted : exists base f start l s, run [Close start] (construct base f start []) = Some (l, s) /\
  forall fuel, openLog (S fuel) (join base (log_id f)) s reader0 = Failed /\ get_log_files (S fuel) (join base (log_id f)) s = Failed.
Proof. exists x_base, x_f1, (x_t 0). eexists. eexists. split; [reflexivity|]. intros fuel. split; reflexivity. Qed.
Print Assumptions c77_empty_refuted.
(** Missing for the full statement: logs without streams, streams sharing a name, and a
    log amending itself. *)
Theorem c77_opens_partial : forall base f start s ops t l' s' rest fuel,
  Forall adds ops -> NoDup (map logKeyName (keys_of ops)) -> run (ops ++ [Close t]) (construct base f start s) = Some (l', s') ->
  keys_of ops <> [] -> normal start -> normal t -> in64 (sec start) -> in64 (sec t) -> plain_dir (join base (log_id f)) ->
  match amended ops with None => rest = [] | Some a => chain s a rest /\ Forall proper rest /\ ~ In (join base (log_id f)) (map fst rest) end ->
  (List.length rest < fuel)%nat ->
  exists r, openLog fuel (join base (log_id f)) s' reader0 = Opened r /\
  (forall k, In k (keys_of ops) -> lookup k (r_streams r) = Some (join base (log_id f) ++ "/" ++ logKeyName k ++ ".log")%string) /\
  earliest (r_start r) (start :: map (fun e => m_start (snd e)) rest) /\ latest (r_end r) (t :: map (fun e => m_end (snd e)) rest).
Proof.
  intros base f start s ops t l' s' rest fuel A N R K Ns Nt Bs Bt PD Am L. destruct (closed_chain base f start s ops t l' s' A N R) as (C1 & C2). cbv zeta in C1, C2.
  set (d := join base (log_id f)) in *. set (m := mkMan start t (keys_of ops) (map logKeyName (keys_of ops)) (amended ops)) in *.
  assert (C : chain s' d ((d, m) :: rest) /\ Forall proper ((d, m) :: rest)).
  { assert (P : proper (d, m)) by (split; [exact PD|]; split; [exact K|]; split; [exact Ns|]; split; [exact Nt|]; split; assumption).
    destruct (amended ops) as [a|] eqn:E; [destruct Am as (Ca & Pa & Na); split; [apply (C2 a rest eq_refl Ca Na)|constructor; assumption]|]. subst rest. split; [apply C1; reflexivity|constructor; [exact P|constructor]]. }
  destruct C as (C & P). destruct (open_chain s' d _ fuel C P) as (r & O & S1 & _ & T1 & T2 & _); [cbn; lia|]. exists r. split; [exact O|]. split; [|split; [exact T1|exact T2]].
  intros k I. apply S1. exists d. split; [|reflexivity]. exists [], m, rest. split; [reflexivity|]. split; [exact I|]. intros e [].
Qed.
Print Assumptions c77_opens_partial.
Example c77_case : exists r, openLog 2 x_d2 x_s2 reader0 = Opened r /\ lookup 5 (r_streams r) = Some "/data/logs/20200301_000000/TRUTH_POSE.log"%string.
Proof.
  destruct x_run2 as (l & R).
  pose proof x_proper as P. inversion P as [|? ? _ P2]; subst.
  destruct (c77_opens_partial x_base x_f2 (x_t 1) x_s1 x_ops2 (x_t 5) l x_s2 [(x_d1, x_m1)] 2) as (r & O & K & _).
  - repeat constructor.
  - cbn. constructor; [intros [E|[]]; discriminate E|]. constructor; [intros []|constructor].
  - exact R.
  - discriminate.
  - unfold normal; cbn; lia.
  - unfold normal; cbn; lia.
  - unfold in64; cbn; lia.
  - unfold in64; cbn; lia.
  - apply plain_ok. intros x E. discriminate E.
  - split; [eapply chain_last; reflexivity|]. split; [exact P2|]. intros [E|[]]. discriminate E.
  - cbn. lia.
  - exists r. split; [exact O|]. apply (K 5). right. left. reflexivity.
Qed.

(** ** C78 *)
(** Opening a second log with the same object: records go to the first log, and its
    streams cannot be created in the second. *)
Theorem c78_reopen_refuted : exists base f g start start' s0 l s, log_id f <> log_id g /\ construct base f start [] = s0 /\
  run [Init 0; Open base g start'] s0 = Some (l, s) /\ run [Init 0] (l, s) = None /\
  exists l' s' x y, run [Rec 0 [7]%N; Close start'] (l, s) = Some (l', s') /\ find (join base (log_id f)) s' = Some x /\ find "IMU_SAMPLE" (d_log x) = Some [7]%N /\ d_manifest x = None /\
  find (join base (log_id g)) s' = Some y /\ d_log y = [].
Proof.
  exists x_base, x_f1, x_f2, (x_t 0), (x_t 1). eexists. eexists. eexists. split; [discriminate|]. split; [reflexivity|]. split; [reflexivity|]. split; [reflexivity|].
  eexists. eexists. eexists. eexists. split; [reflexivity|]. split; [reflexivity|]. split; [reflexivity|]. split; [reflexivity|]. split; reflexivity.
Qed.
Print Assumptions c78_reopen_refuted.
(** Missing for the full statement: opening without closing first.  After close, the
    object is as a new one, whatever was done with it before. *)
Theorem c78_reopen_partial : forall l s l1 s1 t base f start ops t2 l' s',
  step (Close t) (l, s) = Some (l1, s1) -> Forall adds ops -> NoDup (map logKeyName (keys_of ops)) ->
  run (Open base f start :: ops ++ [Close t2]) (l1, s1) = Some (l', s') ->
  (exists x, find (join base (log_id f)) s' = Some x /\ d_manifest x = Some (mkMan start t2 (keys_of ops) (map logKeyName (keys_of ops)) (amended ops)) /\
   forall k, In k (keys_of ops) -> find (logKeyName k) (d_log x) = Some (bytes_of k ops) /\ find (logKeyName k) (d_yml x) = Some (k, count_of k ops)) /\
  (l_dir l <> join base (log_id f) -> find (l_dir l) s' = find (l_dir l) s1).
Proof.
  intros l s l1 s1 t base f start ops t2 l' s' C A N R. assert (El : l_streams l1 = []) by (cbn [step] in C; unfold close_log in C; injection C as <- <-; reflexivity).
  cbn [run step] in R. rewrite El in R. change (open_log base f start [] s1) with (construct base f start s1) in R. split; [apply (closed_log base f start s1 ops t2 l' s' A N R)|].
  intros D. apply (others_untouched base f start s1 (ops ++ [Close t2]) l' s' _ R). intros [J|J]; [congruence|]. change (In (l_dir l) (opened_dirs (ops ++ [Close t2]))) in J.
  unfold opened_dirs in J. rewrite flat_map_app, app_nil_r in J. clear - A J. induction A as [|o r P Q IH]; [exact J|]. destruct o; cbn in P; try contradiction; exact (IH J).
Qed.
Print Assumptions c78_reopen_partial.
Example c78_case : exists l s l1 s1 l' s', run x_ops1 (construct x_base x_f1 (x_t 0) []) = Some (l, s) /\ step (Close (x_t 10)) (l, s) = Some (l1, s1) /\
  run (Open x_base x_f2 (x_t 1) :: x_ops1 ++ [Close (x_t 5)]) (l1, s1) = Some (l', s') /\ l_dir l <> join x_base (log_id x_f2).
Proof. eexists. eexists. eexists. eexists. eexists. eexists. split; [vm_compute; reflexivity|]. split; [vm_compute; reflexivity|]. split; [vm_compute; reflexivity|]. vm_compute. discriminate. Qed.
