(** Concrete sessions of the program that gathers ephemerides and observations *)
From Coq Require Import ZArith NArith List Bool Lia.
From Verif Require Import Bytes UtcTimeModel UtcTimeSpec UbxModel UbxSpec UbxProofs EphModel.
From Verif Require GpsModel GpsSpec GalModel GalSpec GloModel GloSpec GpsProps GalProps GloProps.
From Verif Require Import GatModel GatSpec GatProofs GatOriginProofs.
Import ListNotations.
Local Open Scope N_scope.

Definition z0 : scaled := Sc 0 [].
Definition gal_new (sat : N) : GalModel.gal :=
  GalModel.mkGal sat (GalModel.mkWord0 0 0 0) (GalModel.mkWord1 0 0 z0 z0 z0) (GalModel.mkWord2 0 z0 z0 z0 z0)
    (GalModel.mkWord3 0 z0 z0 z0 z0 z0 z0) (GalModel.mkWord4 0 z0 z0 0 z0 z0 z0) (GalModel.mkWord5 z0 z0 0 0 0 0)
    0 0 0 (mkUtc 0 0) (mkUtc 0 0).
Definition make : makers := mkMake (fun _ => GpsProps.new) gal_new (fun _ => GloProps.new).
Lemma make_ok : makers_ok make.
Proof. split; [|split]; intros sat; repeat split; reflexivity. Qed.
Definition s0 : st := init (repeat 0 (N.to_nat 2048)).
Lemma s0_idle : idle s0. Proof. split; vm_compute; reflexivity. Qed.

Definition nav (gnss sat : N) (words : list N) : msg := mkMsg 2 0x13 ([gnss; sat; 0; 0; N.of_nat (length words) / 4; 0; 2; 0] ++ words).
Definition time0 : list N := repeat 0 11.
Definition tail0 : list N := repeat 0 4.
Definition raw (ms : list measurement) : msg := mkMsg 2 0x15 (rawx time0 tail0 ms).
Definition m_gps : measurement := Meas (repeat 1 8) (repeat 2 8) (repeat 3 4) 0 5 0 0 (repeat 0 8).
Definition m_glo : measurement := Meas (repeat 4 8) (repeat 5 8) (repeat 6 4) 6 9 0 3 (repeat 0 8).
Definition m_other : measurement := Meas (repeat 4 8) (repeat 5 8) (repeat 6 4) 3 9 0 3 (repeat 0 8).

(** a GPS satellite, a GLONASS satellite and measurements *)
Definition gps_log : list msg :=
  [nav 0 5 (GpsProps.ex1 5); raw [m_gps; m_glo; m_other]; nav 0 5 (GpsProps.ex2 5); nav 0 6 (GpsProps.ex1 9); mkMsg 1 7 [1]; nav 0 5 (GpsProps.ex3 5)].
Definition near_toe : utc * utc := (mkUtc 1557016118 0, mkUtc 1557016118 500).
Definition gps_clock : list (utc * utc) := repeat near_toe 5.
Definition run_log (ms : list msg) (clock : list (utc * utc)) : option (list entry) :=
  match receive_chunks listeners s0 (map (fun b => [b]) (concat (map frame ms))) with
  | Some (_, evs) => if Nat.eqb (length clock) (length evs) then option_map snd (gather GpsProps.junk0 make nothing (combine clock evs)) else None
  | None => None
  end.
Lemma chunk_bytes (l : list N) : concat (map (fun b => [b]) l) = l.
Proof. induction l as [|x l IH]; [reflexivity|]. cbn. rewrite IH. reflexivity. Qed.
Lemma run_session ms clock log : run_log ms clock = Some log -> session GpsProps.junk0 make ms clock log.
Proof. intros H. exact (session_run _ _ ms clock log _ s0 s0_idle (chunk_bytes _) H). Qed.

Definition kind (x : entry) : N * N * Z :=
  match x with
  | LogGps t sat e => (0, sat, sec (GpsModel.toe e)) | LogGal t sat e => (2, sat, sec (GalModel.toe e))
  | LogGlo t sat e => (6, sat, sec (GloModel.toe e)) | LogObs t o => (100 + o_gnss o, o_sat o, o_freq o)
  end.
Definition gps_entries : list entry := Eval vm_compute in match run_log gps_log gps_clock with Some l => l | None => [] end.
Lemma gps_ran : run_log gps_log gps_clock = Some gps_entries. Proof. vm_compute. reflexivity. Qed.
Lemma gps_kinds : map kind gps_entries
  = [(100, 5, 1575420000%Z); (106, 9, 1603687500%Z); (0, 5, 1557016018%Z)].
Proof. vm_compute. reflexivity. Qed.
Definition msg_okb (m : msg) : bool :=
  (m_class m <? 256) && (m_id m <? 256) && forallb (fun b => b <? 256) (m_payload m) && Nat.leb 1 (length (m_payload m)) && (N.of_nat (length (m_payload m)) <=? 2048).
Lemma msg_okb_ok m : msg_okb m = true -> msg_ok m.
Proof.
  unfold msg_okb. intros H. repeat (apply andb_prop in H; destruct H as [H ?]).
  split; [apply N.ltb_lt; assumption|]. split; [apply N.ltb_lt; assumption|]. split.
  - apply Forall_forall. intros x X. match goal with F : forallb _ _ = true |- _ => rewrite forallb_forall in F; specialize (F x X) end. apply N.ltb_lt. assumption.
  - split; [apply Nat.leb_le; assumption|apply N.leb_le; assumption].
Qed.
Lemma msgs_ok ms : forallb msg_okb ms = true -> Forall msg_ok ms.
Proof. intros H. apply Forall_forall. intros m I. rewrite forallb_forall in H. apply msg_okb_ok. auto. Qed.
Definition nav_okb (m : msg) : bool :=
  negb (is_nav m) || (Nat.leb 8 (length (m_payload m)) && Nat.eqb (length (nav_words m)) (4 * N.to_nat (nav_count m)) &&
  (negb (nav_gnss m =? 2) || (8 <=? nav_count m)) && (negb (nav_gnss m =? 6) || (4 <=? nav_count m))).
Lemma navs_ok ms : forallb nav_okb ms = true -> Forall readable ms.
Proof.
  intros H. apply Forall_forall. intros m I NV. rewrite forallb_forall in H. specialize (H m I). unfold nav_okb in H. rewrite NV in H. cbn [negb orb] in H.
  apply andb_prop in H; destruct H as [H H4]. apply andb_prop in H; destruct H as [H H3]. apply andb_prop in H; destruct H as [H1 H2].
  split; [apply Nat.leb_le; assumption|]. split; [apply Nat.eqb_eq; assumption|].
  split; intros G.
  - rewrite G in H3. cbn [negb orb N.eqb Pos.eqb] in H3. apply N.leb_le. exact H3.
  - rewrite G in H4. cbn [negb orb N.eqb Pos.eqb] in H4. apply N.leb_le. exact H4.
Qed.
Lemma gps_msgs : Forall msg_ok gps_log. Proof. apply msgs_ok. vm_compute. reflexivity. Qed.
Lemma gps_navs : Forall readable gps_log. Proof. apply navs_ok. vm_compute. reflexivity. Qed.
Lemma raw_three : rawx_ok time0 tail0 [m_gps; m_glo; m_other].
Proof. repeat split. repeat constructor. Qed.
Lemma gps_measured : measured gps_log [None; Some [m_gps; m_glo; m_other]; None; None; None].
Proof.
  unfold gps_log. apply me_nav; [reflexivity|]. apply (me_raw _ _ _ time0 tail0); [reflexivity|reflexivity|exact raw_three|].
  do 2 (apply me_nav; [reflexivity|]). apply me_skip; [reflexivity|]. apply me_nav; [reflexivity|]. apply me_nil.
Qed.
Lemma gps_clock_ok : clock_ok gps_clock.
Proof. unfold clock_ok, gps_clock. cbn [repeat]. repeat (constructor; [split; [unfold normal; cbn; lia|cbn; lia]|]). constructor. Qed.

(** a satellite that sent no word gets the pages of another *)
Definition mixed : list msg := flat_map (fun p => [nav 2 9 p; nav 2 7 []]) (GalProps.burst ++ [GalProps.xw5]).
Definition gal_near : utc * utc := (mkUtc 1558569000 0, mkUtc 1558569000 7).
Definition gal_clock : list (utc * utc) := repeat gal_near 12.
Definition mixed_entries : list entry := Eval vm_compute in match run_log mixed gal_clock with Some l => l | None => [] end.
Lemma mixed_ran : run_log mixed gal_clock = Some mixed_entries. Proof. vm_compute. reflexivity. Qed.
Lemma mixed_kinds : map kind mixed_entries = [(2, 7, 1558569618%Z)]. Proof. vm_compute. reflexivity. Qed.
Lemma mixed_msgs : Forall msg_ok mixed. Proof. apply msgs_ok. vm_compute. reflexivity. Qed.
Lemma mixed_sent : sent_by 2 7 mixed = repeat [] 6. Proof. vm_compute. reflexivity. Qed.

(** the three systems *)
Definition all_log : list msg := map (nav 2 7) GalProps.burst ++ [nav 6 14 GloProps.xs1] ++ [nav 2 7 GalProps.xw5].
Definition all_entries : list entry := Eval vm_compute in match run_log all_log (repeat gal_near 7) with Some l => l | None => [] end.
Lemma all_ran : run_log all_log (repeat gal_near 7) = Some all_entries. Proof. vm_compute. reflexivity. Qed.
Lemma all_kinds : map kind all_entries = [(2, 7, 1558569618%Z)]. Proof. vm_compute. reflexivity. Qed.
Lemma all_msgs : Forall msg_ok all_log. Proof. apply msgs_ok. vm_compute. reflexivity. Qed.
Lemma all_navs : Forall readable all_log. Proof. apply navs_ok. vm_compute. reflexivity. Qed.
Lemma all_measured : measured all_log (repeat None 7).
Proof. unfold all_log. cbn [map app GalProps.burst repeat]. do 7 (apply me_nav; [reflexivity|]). apply me_nil. Qed.
Lemma near_ok p n : sane (snd p) -> clock_ok (repeat p n).
Proof. intros S. unfold clock_ok. induction n as [|n IH]; cbn [repeat]; constructor; auto. Qed.
Lemma gal_near_ok : sane (snd gal_near). Proof. split; [unfold normal; cbn; lia|cbn; lia]. Qed.

Definition glo_near : utc * utc := (mkUtc 1586415600 0, mkUtc 1586408400 0).
Definition glo_log : list msg := map (nav 6 14) (GloProps.set14 ++ [GloProps.xs5]).
Definition glo_entries : list entry := Eval vm_compute in match run_log glo_log (repeat glo_near 5) with Some l => l | None => [] end.
Lemma glo_ran : run_log glo_log (repeat glo_near 5) = Some glo_entries. Proof. vm_compute. reflexivity. Qed.
Lemma glo_kinds : map kind glo_entries = [(6, 14, 1586415600%Z)]. Proof. vm_compute. reflexivity. Qed.
Lemma glo_msgs : Forall msg_ok glo_log. Proof. apply msgs_ok. vm_compute. reflexivity. Qed.
Lemma glo_navs : Forall readable glo_log. Proof. apply navs_ok. vm_compute. reflexivity. Qed.
Lemma glo_measured : measured glo_log (repeat None 5).
Proof. unfold glo_log. cbn [map app GloProps.set14 repeat]. do 5 (apply me_nav; [reflexivity|]). apply me_nil. Qed.
Lemma glo_near_ok : sane (snd glo_near). Proof. split; [unfold normal; cbn; lia|cbn; lia]. Qed.
(** a nanosecond later it is not logged *)
Definition glo_far : utc * utc := (mkUtc 1586415600 0, mkUtc 1586408399 999999999).
Lemma glo_far_ran : run_log glo_log (repeat glo_far 5) = Some []. Proof. vm_compute. reflexivity. Qed.

(** a message that announces a measurement and carries none *)
Definition empty_raw : msg := mkMsg 2 0x15 (time0 ++ [1] ++ tail0).
Definition stale_log : list msg := [raw [m_gps]; empty_raw].
Definition stale_entries : list entry := Eval vm_compute in match run_log stale_log (repeat near_toe 2) with Some l => l | None => [] end.
Lemma stale_ran : run_log stale_log (repeat near_toe 2) = Some stale_entries. Proof. vm_compute. reflexivity. Qed.
Lemma stale_kinds : map kind stale_entries = [(100, 5, 1575420000%Z); (100, 5, 1575420000%Z)]. Proof. vm_compute. reflexivity. Qed.
Lemma stale_msgs : Forall msg_ok stale_log. Proof. apply msgs_ok. vm_compute. reflexivity. Qed.

(** GLONASS measurements *)
Definition glo_raw : list msg := [raw [m_glo]].
Definition glo_raw_entries : list entry := Eval vm_compute in match run_log glo_raw [near_toe] with Some l => l | None => [] end.
Lemma glo_raw_ran : run_log glo_raw [near_toe] = Some glo_raw_entries. Proof. vm_compute. reflexivity. Qed.
Lemma glo_raw_kinds : map kind glo_raw_entries = [(106, 9, 1603687500%Z)]. Proof. vm_compute. reflexivity. Qed.

(** sixty-one measurements *)
Definition many : msg := raw (repeat m_gps 61).
Lemma many_ok : msg_ok many. Proof. apply msg_okb_ok. vm_compute. reflexivity. Qed.
Lemma many_rawx : rawx_ok time0 tail0 (repeat m_gps 61).
Proof. split; [reflexivity|]. split; [reflexivity|]. apply Forall_forall. intros m I. apply repeat_spec in I. subst m. repeat split. Qed.

(** ** Short messages *)
Definition gps_of (mk : makers) (g : gatherer) (sat : N) := cur (mk_gps mk) (w_gps g) sat.
Definition gal_of (mk : makers) (g : gatherer) (sat : N) := cur (mk_gal mk) (w_gal g) sat.
Definition glo_of (mk : makers) (g : gatherer) (sat : N) := cur (mk_glo mk) (w_glo g) sat.
Definition same (mk : makers) (g g' : gatherer) : Prop :=
  forall sat, gps_of mk g' sat = gps_of mk g sat /\ gal_of mk g' sat = gal_of mk g sat /\ glo_of mk g' sat = glo_of mk g sat.
Definition short_for (system words : N) : Prop := system = 0 /\ words < 10 \/ system = 6 /\ words < 4 \/ (system <> 0 /\ system <> 2 /\ system <> 6).
Lemma cur_same {E} (mk : N -> E) w sat k : cur mk ((sat, cur mk w sat) :: w) k = cur mk w k.
Proof. rewrite cur_put. destruct (N.eqb_spec sat k) as [->|]; reflexivity. Qed.
Lemma short_nav junk mk g now check buf system words : nth_error buf 0 = Some system -> nth_error buf 4 = Some words -> (2 <= length buf)%nat ->
  short_for system words -> exists g', nav_gotUbx junk mk g now check buf = Some (g', []) /\ same mk g g'.
Proof.
  intros B0 B4 L S. unfold nav_gotUbx. rewrite B0, B4. cbn [bind].
  destruct (nth_error buf 1) as [sat|] eqn:B1; [|apply nth_error_None in B1; lia]. cbn [bind].
  destruct S as [[-> W]|[[-> W]|(N0 & N2 & N6)]].
  - cbn [N.eqb ID_GPS]. unfold handle. fold (cur (mk_gps mk) (w_gps g) sat). unfold GpsModel.parse.
    destruct (Nat.ltb_spec (N.to_nat words * 4) 40); [|lia]. cbn [bind fst snd map]. eexists. split; [reflexivity|].
    intros k. unfold gps_of, gal_of, glo_of. cbn [w_gps w_gal w_glo]. rewrite cur_same. auto.
  - cbn [N.eqb ID_GPS ID_Glonass Pos.eqb]. unfold handle. fold (cur (mk_glo mk) (w_glo g) sat). unfold GloModel.parse.
    pose proof (firstn_le_length (N.to_nat words * 4) (skipn 8 buf)).
    destruct (Nat.ltb_spec (length (firstn (N.to_nat words * 4) (skipn 8 buf))) 16); [|lia]. cbn [bind fst snd map]. eexists. split; [reflexivity|].
    intros k. unfold gps_of, gal_of, glo_of. cbn [w_gps w_gal w_glo]. rewrite cur_same. auto.
  - unfold ID_GPS, ID_Galileo, ID_Glonass. destruct (N.eqb_spec system 0); [tauto|]. destruct (N.eqb_spec system 6); [tauto|].
    destruct (N.eqb_spec system 2); [tauto|]. exists g. split; [reflexivity|]. intros k. auto.
Qed.
