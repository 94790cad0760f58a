(** C37-C39, C79, C80: satellites and their ephemerides. *)
From Coq Require Import ZArith List Bool Lia.
From Verif Require Import UtcTimeModel UtcTimeSpec SatModel SatSpec SatProofs SatCloseProofs.
Import ListNotations.
Local Open Scope Z_scope.

(** An ephemeris of GPS satellite [n], its contents a number. *)
Definition x_e (n s ns : Z) (d : nat) : eph nat := mkEph 0 n (mkUtc s ns) d.

(** ** C37 *)
Theorem c37_almanac : forall D (es : list (eph D)) g n, Forall (fun e => gnss e = g /\ sat_no e = n /\ normal (toe e)) es ->
  exists s, adds es (mkSat g n []) = Some s /\ s_gnss s = g /\ s_no s = n /\ increasing (almanac s) /\ forall e, In e (almanac s) <-> latest_for es e.
Proof. intros D. exact adds_ok. Qed.
Print Assumptions c37_almanac.
(** An ephemeris of another constellation or satellite ends the process *)
Theorem c37_others : forall D (e : eph D) s, gnss e <> s_gnss s \/ sat_no e <> s_no s -> adds [e] s = None.
Proof.
  intros D e s H. cbn [adds]. unfold addEph. destruct (Z.eqb_spec (gnss e) (s_gnss s)), (Z.eqb_spec (sat_no e) (s_no s)); try reflexivity. destruct H; contradiction.
Qed.
Print Assumptions c37_others.
Definition x_es : list (eph nat) := [x_e 5 7200 0 0; x_e 5 0 0 1; x_e 5 7200 0 2; x_e 5 3600 5 3; x_e 5 3600 0 4].
Example c37_case : exists s, adds x_es (mkSat 0 5 []) = Some s /\ almanac s = [x_e 5 0 0 1; x_e 5 3600 0 4; x_e 5 3600 5 3; x_e 5 7200 0 2].
Proof. eexists. split; reflexivity. Qed.
Lemma x_es_ok : Forall (fun e => gnss e = 0 /\ sat_no e = 5 /\ normal (toe e)) x_es.
Proof. repeat (apply Forall_cons; [unfold normal; cbn; lia|]); apply Forall_nil. Qed.
Example c37_meets : exists s, adds x_es (mkSat 0 5 []) = Some s /\ In (x_e 5 7200 0 2) (almanac s).
Proof.
  destruct (c37_almanac nat x_es 0 5 x_es_ok) as (s & E & _ & _ & _ & I). exists s. split; [exact E|]. apply I.
  exists [x_e 5 7200 0 0; x_e 5 0 0 1], [x_e 5 3600 5 3; x_e 5 3600 0 4]. split; [reflexivity|]. intros x [<-|[<-|[]]]; vm_compute; discriminate.
Qed.

(** ** C38 *)
(** Two reference times a nanosecond apart and far from [t] look equally far, so the scan
    stops before the ephemeris one second away. *)
Theorem c38_closest_refuted : exists t (es : list (eph nat)) s e x, normal t /\ Forall (fun e => normal (toe e)) es /\ adds es (mkSat 0 5 []) = Some s /\
  findClosestEphemeris t s = Some e /\ In x (almanac s) /\ distance t e = 1000000000000000001 /\ distance t x = 1000000000.
Proof.
  exists (mkUtc 0 0), [x_e 5 1 0 0; x_e 5 1000000000 0 1; x_e 5 1000000000 1 2]. eexists. exists (x_e 5 1000000000 1 2), (x_e 5 1 0 0).
  split; [unfold normal; cbn; lia|]. split; [repeat (apply Forall_cons; [unfold normal; cbn; lia|]); apply Forall_nil|]. split; [reflexivity|].
  split; [vm_compute; reflexivity|]. split; [left; reflexivity|]. split; reflexivity.
Qed.
Print Assumptions c38_closest_refuted.
(** Missing from the full statement: reference times 2^22 s (48 days) away or more. *)
Theorem c38_closest_partial : forall D t (s : satellite D), normal t -> almanac s <> [] -> increasing (almanac s) ->
  (forall e, In e (almanac s) -> normal (toe e) /\ distance t e < 2 ^ 22 * 1000000000) ->
  exists e, findClosestEphemeris t s = Some e /\ In e (almanac s) /\ forall x, In x (almanac s) -> distance t e <= distance t x.
Proof. intros D. exact find_closest_exact. Qed.
Print Assumptions c38_closest_partial.
(** Reference times of whole seconds, as the parsers produce: no more than the
    resolution of the distances is lost. *)
Theorem c38_whole_seconds_partial : forall D t k (s : satellite D), 1 <= k <= 51 -> normal t -> almanac s <> [] -> increasing (almanac s) ->
  (forall e, In e (almanac s) -> nsec (toe e) = 0 /\ distance t e < 2 ^ k * 1000000000) ->
  exists e, findClosestEphemeris t s = Some e /\ In e (almanac s) /\ forall x, In x (almanac s) -> distance t e <= distance t x + 1000000000 / 2 ^ (51 - k).
Proof. intros D. exact find_closest_whole. Qed.
Print Assumptions c38_whole_seconds_partial.
Definition x_sat : satellite nat := mkSat 0 5 [x_e 5 0 0 1; x_e 5 7200 0 4; x_e 5 14400 0 2].
Lemma x_increasing : increasing (almanac x_sat).
Proof.
  destruct (c37_almanac nat [x_e 5 14400 0 2; x_e 5 7200 0 4; x_e 5 0 0 1] 0 5) as (s & E & _ & _ & I & _).
  - repeat (apply Forall_cons; [unfold normal; cbn; lia|]); apply Forall_nil.
  - assert (s = x_sat) as -> by (cbn in E; unfold x_sat; congruence). exact I.
Qed.
Example c38_meets : exists e, findClosestEphemeris (mkUtc 3700 0) x_sat = Some e /\ forall x, In x (almanac x_sat) -> distance (mkUtc 3700 0) e <= distance (mkUtc 3700 0) x.
Proof.
  destruct (c38_closest_partial nat (mkUtc 3700 0) x_sat) as (e & E & _ & L); [unfold normal; cbn; lia|discriminate|exact x_increasing| |exists e; split; [exact E|exact L]].
  intros e [<-|[<-|[<-|[]]]]; (split; [unfold normal; cbn; lia|vm_compute; reflexivity]).
Qed.
Example c38_case : findClosestEphemeris (mkUtc 3700 0) x_sat = Some (x_e 5 7200 0 4) /\ findClosestEphemeris (mkUtc 3500 0) x_sat = Some (x_e 5 0 0 1).
Proof. split; vm_compute; reflexivity. Qed.
Example c38_whole_meets : exists e, findClosestEphemeris (mkUtc 1000000000 5) x_sat = Some e /\ forall x, In x (almanac x_sat) -> distance (mkUtc 1000000000 5) e <= distance (mkUtc 1000000000 5) x + 476.
Proof.
  destruct (c38_whole_seconds_partial nat (mkUtc 1000000000 5) 30 x_sat) as (e & E & _ & L); [lia|unfold normal; cbn; lia|discriminate|exact x_increasing| |exists e; split; [exact E|exact L]].
  intros e [<-|[<-|[<-|[]]]]; (split; [reflexivity|vm_compute; reflexivity]).
Qed.

(** ** C39 *)
(** Every history of callbacks leaves the satellites, and their ephemerides, that the
    roster of 29 places prescribes. *)
Theorem c39_roster : forall D (l : list (system * eph D)), Forall genuine l -> exists m, run_mgr l manager0 = Some m /\
  forall y, exists r, roster_after 29 (of_system y l) r /\ held y m = map fst r /\
    forall n s, getSat (number y) n m = Some s <-> exists es, In (n, es) r /\ adds es (mkSat (number y) n []) = Some s.
Proof. intros D. exact manager_ok. Qed.
Print Assumptions c39_roster.
Theorem c39_held : forall D (l : list (system * eph D)) m, Forall genuine l -> run_mgr l manager0 = Some m -> forall y,
  NoDup (held y m) /\ (length (held y m) <= 29)%nat /\ forall n, In n (held y m) <-> exists s, getSat (number y) n m = Some s.
Proof. intros D. exact manager_held. Qed.
Print Assumptions c39_held.
Theorem c39_discovery : forall D (l : list (system * eph D)) m y e, Forall genuine (l ++ [(y, e)]) -> run_mgr l manager0 = Some m ->
  exists m', run_mgr (l ++ [(y, e)]) manager0 = Some m' /\
  (forall z, z <> y -> held z m' = held z m /\ forall n, getSat (number z) n m' = getSat (number z) n m) /\
  (In (sat_no e) (held y m) -> held y m' = held y m) /\
  (~ In (sat_no e) (held y m) -> (length (held y m) < 29)%nat -> held y m' = held y m ++ [sat_no e]) /\
  (~ In (sat_no e) (held y m) -> length (held y m) = 29%nat -> held y m' = tl (held y m) ++ [sat_no e]).
Proof. intros D. exact manager_step. Qed.
Print Assumptions c39_discovery.
(** GPS satellites 1 to 32 and a Galileo satellite. *)
Definition x_hist (k : nat) : list (system * eph nat) := (Galileo, mkEph 2 7 (mkUtc 600 0) 9%nat) :: map (fun i => (GPS, x_e (Z.of_nat i) 7200 0 i)) (seq 1 k).
Lemma x_genuine k : Forall genuine (x_hist k).
Proof.
  apply Forall_cons; [unfold genuine, normal; cbn; lia|]. apply Forall_forall. intros [y e] I. apply in_map_iff in I. destruct I as (i & E & _).
  assert (y = GPS) by congruence. assert (e = x_e (Z.of_nat i) 7200 0 i) by congruence. subst. unfold genuine, normal. cbn. lia.
Qed.
Definition x_m29 : manager nat := Eval vm_compute in match run_mgr (x_hist 29) manager0 with Some m => m | None => manager0 end.
Definition x_m32 : manager nat := Eval vm_compute in match run_mgr (x_hist 32) manager0 with Some m => m | None => manager0 end.
Lemma x_run29 : run_mgr (x_hist 29) manager0 = Some x_m29.
Proof. vm_compute. reflexivity. Qed.
Lemma x_run32 : run_mgr (x_hist 32) manager0 = Some x_m32.
Proof. vm_compute. reflexivity. Qed.
Example c39_case : run_mgr (x_hist 32) manager0 = Some x_m32 /\ held GPS x_m32 = map Z.of_nat (seq 4 29) /\ held Galileo x_m32 = [7] /\
  getSat 0 3 x_m32 = None /\ getSat 0 4 x_m32 = Some (mkSat 0 4 [x_e 4 7200 0 4]) /\ getSat 2 7 x_m32 = Some (mkSat 2 7 [mkEph 2 7 (mkUtc 600 0) 9%nat]).
Proof. split; [exact x_run32|]. vm_compute. repeat (split; [reflexivity|]). reflexivity. Qed.
Example c39_meets : exists m, run_mgr (x_hist 30) manager0 = Some m /\ held GPS m = tl (held GPS x_m29) ++ [30].
Proof.
  assert (E : x_hist 30 = x_hist 29 ++ [(GPS, x_e 30 7200 0 30)]) by reflexivity. rewrite E.
  destruct (c39_discovery nat (x_hist 29) x_m29 GPS (x_e 30 7200 0 30)) as (m & R & _ & _ & _ & F).
  - rewrite <- E. apply x_genuine.
  - exact x_run29.
  - exists m. split; [exact R|]. apply F; [|vm_compute; reflexivity]. intros I. assert (B : existsb (Z.eqb 30) (held GPS x_m29) = true) by (apply existsb_exists; exists 30; split; [exact I|reflexivity]).
    assert (B' : existsb (Z.eqb 30) (held GPS x_m29) = false) by (vm_compute; reflexivity). congruence.
Qed.

(** ** C79 *)
(** The GPS constellation has numbers 1 to 32. *)
Theorem c79_all_held_refuted : exists (l : list (system * eph nat)) m, Forall genuine l /\ (forall e, In (GPS, e) l -> 1 <= sat_no e <= 32) /\ run_mgr l manager0 = Some m /\
  exists e, In (GPS, e) l /\ getSat (number GPS) (sat_no e) m = None.
Proof.
  exists (x_hist 32), x_m32. split; [apply x_genuine|]. split.
  - intros e [I|I]; [discriminate I|]. apply in_map_iff in I. destruct I as (i & E & I). apply in_seq in I. assert (e = x_e (Z.of_nat i) 7200 0 i) by congruence. subst. cbn. lia.
  - split; [exact x_run32|]. exists (x_e 1 7200 0 1). split; [right; left; reflexivity|vm_compute; reflexivity].
Qed.
Print Assumptions c79_all_held_refuted.
(** Missing from the full statement: constellations of more than 29 satellites. *)
Theorem c79_all_held_partial : forall D (l : list (system * eph D)) m y ns, Forall genuine l -> run_mgr l manager0 = Some m ->
  (forall e, In (y, e) l -> In (sat_no e) ns) -> (length ns <= 29)%nat -> forall e, In (y, e) l -> exists s, getSat (number y) (sat_no e) m = Some s.
Proof. intros D. exact manager_all. Qed.
Print Assumptions c79_all_held_partial.
Example c79_meets : exists s, getSat 0 1 x_m29 = Some s.
Proof.
  apply (c79_all_held_partial nat (x_hist 29) x_m29 GPS (map Z.of_nat (seq 1 29)) (x_genuine 29)) with (e := x_e 1 7200 0 1).
  - exact x_run29.
  - intros e [I|I]; [discriminate I|]. apply in_map_iff in I. destruct I as (i & E & I). assert (e = x_e (Z.of_nat i) 7200 0 i) by congruence. subst. cbn [x_e sat_no]. apply in_map, I.
  - vm_compute. lia.
  - right. left. reflexivity.
Qed.

(** ** C80 *)
Theorem c80_has_ephemeris : forall D (l : list (system * eph D)) m y n s, Forall genuine l -> run_mgr l manager0 = Some m -> getSat (number y) n m = Some s ->
  s_gnss s = number y /\ s_no s = n /\ almanac s <> [] /\ increasing (almanac s) /\ forall e, In e (almanac s) -> In (y, e) l /\ sat_no e = n.
Proof. intros D. exact manager_sat. Qed.
Print Assumptions c80_has_ephemeris.
Example c80_meets : almanac (mkSat 2 7 [mkEph 2 7 (mkUtc 600 0) 9%nat]) <> [].
Proof. apply (c80_has_ephemeris nat (x_hist 32) x_m32 Galileo 7 _ (x_genuine 32)); [exact x_run32|vm_compute; reflexivity]. Qed.
