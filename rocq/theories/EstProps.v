(** C40, C41, C81-C86: the estimator's measurements, states and ephemerides. *)
From Coq Require Import ZArith List Bool Lia Permutation.
From Verif Require Import UtcTimeModel UtcTimeSpec Float64 QuantizedModel SatModel SatSpec EstModel EstSpec EstTimeProofs EstSafeProofs EstProofs.
Import ListNotations.
Local Open Scope Z_scope.

(** A filter whose state is the list of what was done to it: (0, u) a prediction with
    input u, (1, z) a position, (2, z) fix and hold.  Ephemerides hold numbers. *)
Definition x_step (x : list (nat * nat)) (dt : b64) (u : nat) := x ++ [(0%nat, u)].
Definition x_pos (x : list (nat * nat)) (u z : nat) := x ++ [(1%nat, z)].
Definition x_hold (x : list (nat * nat)) (z : nat) := x ++ [(2%nat, z)].
Notation x_call := (call nat nat nat nat).
Notation x_run := (run (D := nat) x_step x_pos x_hold).
Notation x_add := (addMeasurement (D := nat) x_step x_pos x_hold).
Definition x_t0 : utc := mkUtc 10 0.
Definition x_init : est (list (nat * nat)) nat nat nat nat := init x_t0 [] 7%nat.
Definition x_m (s ns : Z) (z : kind nat nat nat) : meas nat nat nat := mkMeas (mkUtc s ns) z.
Definition x_imu (s ns : Z) (u : nat) : x_call := Add (x_m s ns (Imu u)).
Definition x_eph (n : Z) : x_call := Eph GPS (mkEph 0 n (mkUtc 7200 0) 0%nat).
Lemma x_start : start_ok x_t0.
Proof. unfold start_ok, normal. cbn. lia. Qed.
Lemma x_session s ns : 0 <= s < 100000 -> 0 <= ns < 1000000000 -> in_session x_t0 (mkUtc s ns).
Proof. unfold in_session, normal, instant. cbn [sec nsec x_t0]. lia. Qed.
Ltac x_sess := repeat (apply Forall_cons; [apply x_session; lia|]); apply Forall_nil.
Ltac x_sep := repeat (apply FOP_cons; [repeat (apply Forall_cons; [vm_compute; discriminate|]); apply Forall_nil|]); apply FOP_nil.

(** ** C40 *)
(** The same IMU sample, position and fix-and-hold, all at the same time: a position
    that arrives last makes the filter apply the fix-and-hold again. *)
Theorem c40_order_refuted : exists l l' e e', session x_t0 l /\ session x_t0 l' /\ Permutation (offered l) (offered l') /\
  x_run l x_init = Some ([true; true; true], e) /\ x_run l' x_init = Some ([true; true; true], e') /\
  current e = Some (mkSnap (mkUtc 11 0) [(0, 1); (1, 2); (2, 3)]%nat 1%nat) /\ current e' = Some (mkSnap (mkUtc 11 0) [(0, 1); (2, 3); (1, 2); (2, 3)]%nat 1%nat).
Proof.
  exists [x_imu 11 0 1; Add (x_m 11 0 (Pos 2%nat)); Add (x_m 11 0 (Hold 3%nat))], [x_imu 11 0 1; Add (x_m 11 0 (Hold 3%nat)); Add (x_m 11 0 (Pos 2%nat))].
  eexists. eexists. split; [split; [exact x_start|x_sess]|]. split; [split; [exact x_start|x_sess]|]. split; [apply perm_skip, perm_swap|].
  split; [vm_compute; reflexivity|]. split; [vm_compute; reflexivity|]. split; reflexivity.
Qed.
Print Assumptions c40_order_refuted.
(** Missing from the full statement: measurements less than 50.002 microseconds apart. *)
Theorem c40_order_partial : forall X U P H D (propagate : X -> b64 -> U -> X) (with_pos : X -> U -> P -> X) (with_hold : X -> H -> X) t0 x0 u0 (l l' : list (call U P H D)) bs bs' e e',
  run propagate with_pos with_hold l (init t0 x0 u0) = Some (bs, e) -> run propagate with_pos with_hold l' (init t0 x0 u0) = Some (bs', e') -> session t0 l -> session t0 l' ->
  Permutation (accepted l bs) (accepted l' bs') -> separated (instant t0 :: map time (accepted l bs)) -> current e = current e'.
Proof. intros X U P H D f g h t0 x0 u0 l l' bs bs' e e' R R' [S0 S1] [_ S2]. exact (order_free f g h t0 S0 x0 u0 l l' bs bs' e e' R R' S1 S2). Qed.
Print Assumptions c40_order_partial.
Definition x_l : list x_call := [x_eph 5; x_imu 10 500000000 1; x_imu 10 900000000 2; Add (x_m 10 700000000 (Pos 3%nat)); Add (x_m 10 600000000 (Bundle [mkObs (mkUtc 10 600000000) 0 5])); Add (x_m 11 0 (Hold 4%nat)); x_imu 9 0 5].
Definition x_l' : list x_call := [Add (x_m 11 0 (Hold 4%nat)); x_imu 10 900000000 2; Add (x_m 10 600000000 (Bundle [mkObs (mkUtc 10 600000000) 0 5])); Add (x_m 10 700000000 (Pos 3%nat)); x_eph 5; Add (x_m 10 600000000 (Bundle [mkObs (mkUtc 10 600000000) 0 5])); x_imu 10 500000000 1].
Definition x_e : est (list (nat * nat)) nat nat nat nat := Eval vm_compute in match x_run x_l x_init with Some r => snd r | None => x_init end.
Definition x_e' : est (list (nat * nat)) nat nat nat nat := Eval vm_compute in match x_run x_l' x_init with Some r => snd r | None => x_init end.
Lemma x_ran : x_run x_l x_init = Some ([true; true; true; true; true; false], x_e).
Proof. vm_compute. reflexivity. Qed.
Lemma x_ran' : x_run x_l' x_init = Some ([true; true; false; true; true; true], x_e').
Proof. vm_compute. reflexivity. Qed.
Lemma x_sess_l : session x_t0 x_l.
Proof. split; [exact x_start|x_sess]. Qed.
Lemma x_sess_l' : session x_t0 x_l'.
Proof. split; [exact x_start|x_sess]. Qed.
Example c40_meets : current x_e = current x_e'.
Proof.
  apply (c40_order_partial _ _ _ _ _ _ _ _ _ _ _ _ _ _ _ _ _ x_ran x_ran' x_sess_l x_sess_l').
  - cbn [accepted x_l x_l' x_imu x_eph]. set (a := x_m 10 _ _). set (b := x_m 10 _ _). set (c := x_m 10 _ _). set (d := x_m 10 _ _). set (f := x_m 11 _ _).
    apply Permutation_sym. apply (Permutation_trans (l' := [a; f; b; c; d])); [apply Permutation_sym, (Permutation_cons_append [f; b; c; d] a)|]. apply perm_skip.
    apply (Permutation_cons_append [b; c; d] f).
  - x_sep.
Qed.
Example c40_case : exists t, current x_e = Some (mkSnap t [(0, 1); (0, 1); (0, 1); (1, 3); (0, 2); (0, 2); (2, 4)]%nat 2%nat) /\ 10999999999 <= instant t <= 11000000001.
Proof. eexists. split; [vm_compute; reflexivity|]. unfold instant. cbn [sec nsec]. lia. Qed.

(** ** C41 *)
(** 40 microseconds before the oldest state: not rejected, and the search for an older
    state runs off the buffer. *)
Theorem c41_before_oldest_refuted : exists m f, front (states x_init) = Some f /\ in_session x_t0 (m_t m) /\ time m < instant (s_t f) /\ x_add m x_init = None.
Proof. exists (x_m 9 999960000 (Imu 1%nat)). eexists. split; [reflexivity|]. split; [apply x_session; lia|]. split; vm_compute; reflexivity. Qed.
Print Assumptions c41_before_oldest_refuted.
(** Missing from the full statement: measurements at most 50 microseconds older. *)
Theorem c41_stale_partial : forall X U P H D (propagate : X -> b64 -> U -> X) (with_pos : X -> U -> P -> X) (with_hold : X -> H -> X) t0 x0 u0 (l : list (call U P H D)) bs e m f,
  run propagate with_pos with_hold l (init t0 x0 u0) = Some (bs, e) -> session t0 l -> in_session t0 (m_t m) -> front (states e) = Some f -> 50000 < instant (s_t f) - time m ->
  addMeasurement propagate with_pos with_hold m e = Some (false, e).
Proof. intros X U P H D g h k t0 x0 u0 l bs e m f R S. exact (hist_stale g h k t0 (proj1 S) x0 u0 l bs e m f R S). Qed.
Print Assumptions c41_stale_partial.
Theorem c41_unknown : forall X U P H D (propagate : X -> b64 -> U -> X) (with_pos : X -> U -> P -> X) (with_hold : X -> H -> X) t0 x0 u0 (l : list (call U P H D)) bs e m os o,
  run propagate with_pos with_hold l (init t0 x0 u0) = Some (bs, e) -> session t0 l -> in_session t0 (m_t m) -> Forall ranged (received_eph l) -> m_z m = Bundle os -> In o os -> 0 <= o_sat o < 256 ->
  ~ known_to (received_eph l) (o_gnss o) (o_sat o) -> addMeasurement propagate with_pos with_hold m e = Some (false, e).
Proof. intros X U P H D g h k t0 x0 u0 l bs e m os o R S. exact (hist_unknown g h k t0 (proj1 S) x0 u0 l bs e m os o R S). Qed.
Print Assumptions c41_unknown.
Theorem c41_unchanged : forall X U P H D (propagate : X -> b64 -> U -> X) (with_pos : X -> U -> P -> X) (with_hold : X -> H -> X) t0 x0 u0 (l : list (call U P H D)) bs e m e',
  run propagate with_pos with_hold l (init t0 x0 u0) = Some (bs, e) -> session t0 l -> in_session t0 (m_t m) -> addMeasurement propagate with_pos with_hold m e = Some (false, e') -> e' = e.
Proof. intros X U P H D g h k t0 x0 u0 l bs e m e' R S. exact (hist_unchanged g h k t0 (proj1 S) x0 u0 l bs e m e' R S). Qed.
Print Assumptions c41_unchanged.
Lemma x_ranged : Forall ranged (received_eph x_l).
Proof. apply Forall_cons; [split; [split; [reflexivity|]|]; unfold normal; cbn; lia|apply Forall_nil]. Qed.
Example c41_stale_meets : x_add (x_m 9 999949999 (Pos 1%nat)) x_e = Some (false, x_e).
Proof. refine (c41_stale_partial _ _ _ _ _ _ _ _ _ _ _ _ _ _ _ _ x_ran x_sess_l _ eq_refl _); [apply x_session; lia|vm_compute; reflexivity]. Qed.
Example c41_unknown_meets : x_add (x_m 11 0 (Bundle [mkObs (mkUtc 11 0) 0 5; mkObs (mkUtc 11 0) 0 6])) x_e = Some (false, x_e).
Proof.
  refine (c41_unknown _ _ _ _ _ _ _ _ _ _ _ _ _ _ (x_m 11 0 (Bundle [mkObs (mkUtc 11 0) 0 5; mkObs (mkUtc 11 0) 0 6])) _ _ x_ran x_sess_l _ x_ranged eq_refl (or_intror (or_introl eq_refl)) _ _); [apply x_session; lia|cbn; lia|].
  intros (y & e & [Q|[]] & _ & N). assert (e = mkEph 0 5 (mkUtc 7200 0) 0%nat) by congruence. subst. cbn in N. lia.
Qed.

(** ** C81 *)
(** An IMU sample 10 ns after another, one 40 microseconds before the first state, and a
    repeated time stamp (the state's time, computed from a double, is a nanosecond short). *)
Theorem c81_close_refuted : exists l : list x_call, session x_t0 l /\ received_eph l = [] /\ map time (offered l) = [11000000000; 11000000010] /\ x_run l x_init = None.
Proof. exists [x_imu 11 0 1; x_imu 11 10 2]. split; [split; [exact x_start|x_sess]|]. repeat (split; [reflexivity|]). vm_compute. reflexivity. Qed.
Print Assumptions c81_close_refuted.
Theorem c81_early_refuted : exists l : list x_call, session x_t0 l /\ received_eph l = [] /\ map time (offered l) = [9999960000] /\ x_run l x_init = None.
Proof. exists [x_imu 9 999960000 1]. split; [split; [exact x_start|x_sess]|]. repeat (split; [reflexivity|]). vm_compute. reflexivity. Qed.
Print Assumptions c81_early_refuted.
Theorem c81_repeated_refuted : exists (l : list x_call) t, session x_t0 l /\ received_eph l = [] /\ map time (offered l) = [t; t] /\ x_run l x_init = None.
Proof. exists [x_imu 14 15000000 1; x_imu 14 15000000 2]. eexists. split; [split; [exact x_start|x_sess]|]. repeat (split; [reflexivity|]). vm_compute. reflexivity. Qed.
Print Assumptions c81_repeated_refuted.
(** Missing from the full statement: measurements less than 50.002 microseconds apart or
    from the start, and more than 29 satellites of a constellation (C85). *)
Theorem c81_safe_partial : forall X U P H D (propagate : X -> b64 -> U -> X) (with_pos : X -> U -> P -> X) (with_hold : X -> H -> X) t0 x0 u0 ns (l : list (call U P H D)),
  few ns (received_eph l) -> Forall ranged (received_eph l) -> session t0 l -> Forall proper (offered l) -> separated (instant t0 :: map time (offered l)) ->
  exists r, run propagate with_pos with_hold l (init t0 x0 u0) = Some r.
Proof. intros X U P H D f g h t0 x0 u0 ns l F R S. exact (hist_safe f g h t0 (proj1 S) x0 u0 ns l F R S). Qed.
Print Assumptions c81_safe_partial.
Lemma x_few : few (fun y => match y with GPS => [5] | _ => [] end) (received_eph x_l).
Proof.
  split; [intros []; cbn; lia|]. intros y x [Q|[]]. assert (y = GPS) by congruence. assert (x = mkEph 0 5 (mkUtc 7200 0) 0%nat) by congruence. subst. left. reflexivity.
Qed.
Lemma x_proper : Forall proper (offered x_l).
Proof. cbn [offered x_l x_imu x_eph]. repeat (apply Forall_cons; [cbn [proper m_z x_m]; try exact I|]); try apply Forall_nil. split; [reflexivity|]. split; [exists GPS; reflexivity|cbn; lia]. Qed.
Example c81_meets : exists r, x_run x_l x_init = Some r.
Proof. apply (c81_safe_partial _ _ _ _ _ _ _ _ _ _ _ _ _ x_few x_ranged x_sess_l x_proper). x_sep. Qed.

(** ** C82 *)
(** After an IMU sample 5 s after the start, one half a second older is rejected. *)
Theorem c82_late_refuted : exists l e m, session x_t0 l /\ x_run l x_init = Some ([true], e) /\ map time (offered l) = [15000000000] /\ time m = 14500000000 /\ m_z m = Imu 2%nat /\ in_session x_t0 (m_t m) /\
  x_add m e = Some (false, e).
Proof.
  exists [x_imu 15 0 1]. eexists. exists (x_m 14 500000000 (Imu 2%nat)). split; [split; [exact x_start|x_sess]|]. split; [vm_compute; reflexivity|]. repeat (split; [reflexivity|]). split; [apply x_session; lia|]. vm_compute. reflexivity.
Qed.
Print Assumptions c82_late_refuted.
(** Missing from the full statement: some accepted measurement, itself at most a second
    older than the newest and among the newest 99, has to be older than [m]; times are
    separated. *)
Theorem c82_late_partial : forall X U P H D (propagate : X -> b64 -> U -> X) (with_pos : X -> U -> P -> X) (with_hold : X -> H -> X) t0 x0 u0 (l : list (call U P H D)) bs e m a,
  run propagate with_pos with_hold l (init t0 x0 u0) = Some (bs, e) -> session t0 l -> in_session t0 (m_t m) -> Forall ranged (received_eph l) -> proper m -> told (received_eph l) m ->
  separated (instant t0 :: map time (accepted l bs ++ [m])) -> In a (accepted l bs) -> time a <= time m -> (forall x, In x (accepted l bs) -> time x - 1000000000 <= time a) ->
  (length (filter (fun x => (time a <? time x)%Z) (accepted l bs)) <= 98)%nat -> forall r, addMeasurement propagate with_pos with_hold m e = Some r -> fst r = true.
Proof. intros X U P H D f g h t0 x0 u0 l bs e m a R S. exact (hist_recent f g h t0 (proj1 S) x0 u0 l bs e m a R S). Qed.
Print Assumptions c82_late_partial.
Example c82_meets : exists e', x_add (x_m 10 550000000 (Hold 9%nat)) x_e = Some (true, e').
Proof.
  destruct (x_add (x_m 10 550000000 (Hold 9%nat)) x_e) as [[b e']|] eqn:E.
  - exists e'. pose proof (c82_late_partial _ _ _ _ _ _ _ _ _ _ _ _ _ _ (x_m 10 550000000 (Hold 9%nat)) (x_m 10 500000000 (Imu 1%nat)) x_ran x_sess_l (x_session 10 550000000 ltac:(lia) ltac:(lia)) x_ranged I I) as Q.
    specialize (Q ltac:(x_sep) (or_introl eq_refl) ltac:(vm_compute; discriminate)). specialize (Q ltac:(intros x J; repeat (destruct J as [<-|J]; [vm_compute; discriminate|]); destruct J) ltac:(apply Nat.leb_le; vm_compute; reflexivity) _ E). cbn [fst] in Q. subst. reflexivity.
  - exfalso. assert (K : match x_add (x_m 10 550000000 (Hold 9%nat)) x_e with None => true | Some _ => false end = false) by (vm_compute; reflexivity). rewrite E in K. discriminate.
Qed.

(** ** C83 *)
(** The subtraction in x.t != INVALID_TIME overflows for every time since 1970. *)
Theorem c83_overflow_refuted : (exists t, normal t) /\ forall t, 0 <= sec t -> q_ne t INVALID_TIME = None.
Proof.
  split; [exists (mkUtc 0 0); unfold normal; cbn; lia|]. intros t S. unfold q_ne, sub, i64, fits. cbn [sec INVALID_TIME].
  destruct (sec t - - 2 ^ 63 <? 2 ^ (64 - 1)) eqn:B; [apply Z.ltb_lt in B; exfalso; change (2 ^ (64 - 1)) with (2 ^ 63) in B; lia|]. rewrite andb_false_r. reflexivity.
Qed.
Print Assumptions c83_overflow_refuted.
Theorem c83_before_1970_partial : forall t, normal t -> - 2 ^ 62 <= sec t < 0 -> q_ne t INVALID_TIME = Some true.
Proof. exact before_1970. Qed.
Print Assumptions c83_before_1970_partial.
Example c83_meets : q_ne (mkUtc (-5) 7) INVALID_TIME = Some true.
Proof. apply c83_before_1970_partial; [unfold normal; cbn; lia|cbn; lia]. Qed.

(** ** C84 *)
(** gnss_id of the data passed to the residual is never set: every observation is
    compared with the GPS clock. *)
Theorem c84_clock_refuted : forall o y, o_gnss o = number y -> y <> GPS -> residual_clock o <> own_clock y.
Proof. intros o [] _ N; [congruence|vm_compute; discriminate|vm_compute; discriminate]. Qed.
Print Assumptions c84_clock_refuted.
Theorem c84_gps_partial : forall o, o_gnss o = number GPS -> residual_clock o = own_clock GPS.
Proof. intros o _. reflexivity. Qed.
Print Assumptions c84_gps_partial.
Example c84_meets : residual_clock (mkObs x_t0 (number Galileo) 7) <> own_clock Galileo /\ residual_clock (mkObs x_t0 (number GPS) 7) = own_clock GPS.
Proof. split; [apply c84_clock_refuted; [reflexivity|discriminate]|apply c84_gps_partial; reflexivity]. Qed.

(** ** C85 *)
(** GPS satellites 1 to 30, then an observation of satellite 1: its ephemeris is taken
    to be known, the manager has dropped it, and the process ends. *)
Definition x_many : list x_call := map (fun i => x_eph (Z.of_nat i)) (seq 1 30).
Definition x_e30 : est (list (nat * nat)) nat nat nat nat := Eval vm_compute in match x_run x_many x_init with Some r => snd r | None => x_init end.
Definition x_obs1 : meas nat nat nat := x_m 11 0 (Bundle [mkObs (mkUtc 11 0) (number GPS) 1]).
Lemma x_many_ranged : Forall ranged (received_eph x_many).
Proof.
  assert (Q : forallb (fun p : system * eph nat => sys_eqb (fst p) GPS && (gnss (snd p) =? 0) && (0 <=? nsec (toe (snd p))) && (nsec (toe (snd p)) <? 1000000000) && (0 <=? sat_no (snd p)) && (sat_no (snd p) <? 256)) (received_eph x_many) = true) by (vm_compute; reflexivity).
  rewrite forallb_forall in Q. apply Forall_forall. intros [y e] J. specialize (Q _ J). cbn [fst snd] in Q. rewrite !andb_true_iff in Q. destruct Q as (((((Q1 & Q2) & Q3) & Q4) & Q5) & Q6). assert (y = GPS) by (destruct y; cbn in Q1; congruence). subst y.
  split; [split; cbn [fst snd number]; [lia|unfold normal; lia]|cbn [snd]; lia].
Qed.
Lemma x_many_run : x_run x_many x_init = Some ([], x_e30).
Proof. vm_compute. reflexivity. Qed.
Lemma x_first (y : system) e (r : list x_call) : known_to (received_eph (Eph y e :: r)) (number y) (sat_no e).
Proof. exists y, e. split; [left; reflexivity|split; reflexivity]. Qed.
Lemma x_many_known : known_to (received_eph x_many) (number GPS) 1.
Proof.
  assert (E : x_many = Eph GPS (mkEph 0 1 (mkUtc 7200 0) 0%nat) :: map (fun i => x_eph (Z.of_nat i)) (seq 2 29)) by (vm_compute; reflexivity).
  rewrite E. exact (x_first _ _ _).
Qed.
Lemma x_many_has : hasCache (number GPS) 1 (caches x_e30) = true.
Proof. vm_compute. reflexivity. Qed.
Lemma x_many_gone : getSat (number GPS) 1 (sats x_e30) = None.
Proof. vm_compute. reflexivity. Qed.
Lemma x_many_end : x_add x_obs1 x_e30 = None.
Proof. vm_compute. reflexivity. Qed.
Theorem c85_evicted_refuted : exists l e, Forall ranged (received_eph l) /\ x_run l x_init = Some ([], e) /\ known_to (received_eph l) (number GPS) 1 /\
  hasCache (number GPS) 1 (caches e) = true /\ getSat (number GPS) 1 (sats e) = None /\ x_add x_obs1 e = None.
Proof.
  exists x_many, x_e30. exact (conj x_many_ranged (conj x_many_run (conj x_many_known (conj x_many_has (conj x_many_gone x_many_end))))).
Qed.
Print Assumptions c85_evicted_refuted.
(** Missing from the full statement: more than 29 satellites of a constellation. *)
Theorem c85_usable_partial : forall X U P H D (propagate : X -> b64 -> U -> X) (with_pos : X -> U -> P -> X) (with_hold : X -> H -> X) t0 x0 u0 ns (l : list (call U P H D)) bs e g n,
  run propagate with_pos with_hold l (init t0 x0 u0) = Some (bs, e) -> Forall ranged (received_eph l) -> few ns (received_eph l) -> 0 <= n < 256 -> known_to (received_eph l) g n ->
  hasCache g n (caches e) = true /\ exists s, getSat g n (sats e) = Some s.
Proof. intros X U P H D f g h t0 x0 u0 ns l bs e. exact (hist_usable f g h t0 x0 u0 ns l bs e). Qed.
Print Assumptions c85_usable_partial.
Example c85_meets : hasCache 0 5 (caches x_e) = true /\ exists s, getSat 0 5 (sats x_e) = Some s.
Proof.
  apply (c85_usable_partial _ _ _ _ _ _ _ _ _ _ _ _ _ _ _ _ _ x_ran x_ranged x_few); [lia|]. exists GPS, (mkEph 0 5 (mkUtc 7200 0) 0%nat). split; [left; reflexivity|split; reflexivity].
Qed.

(** ** C86 *)
Theorem c86_time_lost_refuted : forall X (blank : X) s, t_of s <> mkUtc 0 0 -> t_of (copyState blank s) <> t_of s.
Proof. intros X blank s N E. apply N. rewrite <- E. reflexivity. Qed.
Print Assumptions c86_time_lost_refuted.
Theorem c86_assigned_refuted : forall X (a b : state X), t_of a <> t_of b -> t_of (assignState a b) <> t_of b.
Proof. intros X a b N E. exact (N E). Qed.
Print Assumptions c86_assigned_refuted.
(** Whatever is assigned, in whatever order, the numbers are those of the last source and
    the time is that of the object assigned to. *)
Theorem c86_rest_partial : forall X (l : list (state X)) d, x_of (fold_left assignState l d) = x_of (last l d) /\ t_of (fold_left assignState l d) = t_of d.
Proof.
  intros X l. induction l as [|a l IH] using rev_ind; intros d; [split; reflexivity|]. rewrite fold_left_app, last_last. cbn [fold_left]. split; [reflexivity|]. cbn [assignState t_of]. apply IH.
Qed.
Print Assumptions c86_rest_partial.
Theorem c86_copy_partial : forall X (blank blank' : X) s, copyState blank s = copyState blank' s /\ x_of (copyState blank s) = x_of s.
Proof. intros X b b' s. split; reflexivity. Qed.
Print Assumptions c86_copy_partial.
Example c86_meets : t_of (copyState 0%nat (mkState (mkUtc 5 6) 7%nat)) <> mkUtc 5 6.
Proof. apply c86_time_lost_refuted. discriminate. Qed.
