(** Proofs about the program that gathers ephemerides and observations *)
From Coq Require Import ZArith NArith Reals List Bool Lia Lra.
From Flocq Require Import Core IEEE754.BinarySingleNaN.
From Verif Require Import Bytes BitToolsModel UtcTimeModel UtcTimeSpec UtcTimeProofs Float64 QuantizedModel QuantizedProofs UbxModel UbxSpec UbxProofs EphModel EphSpec EphProofs.
From Verif Require GpsModel GpsSpec GpsProofs GalModel GalSpec GalProofs GloModel GloSpec GloProofs.
From Verif Require Import GatModel GatSpec.
Import ListNotations.

(** ** The two hours *)
Section hours.
Local Open Scope R_scope.
Lemma fin_7200 : finite (of_Z 7200) = true. Proof. vm_compute. reflexivity. Qed.
Lemma v_7200_1 : val (of_Z 7200) < val (toSec (mkUtc 7200 1)). Proof. concrete. Qed.
Lemma v_7201 : val (of_Z 7200) < val (toSec (mkUtc 7201 0)). Proof. concrete. Qed.
Lemma v_7200 : val (toSec (mkUtc 7200 0)) <= val (of_Z 7200). Proof. concrete. Qed.
Lemma v_7199 : val (toSec (mkUtc 7199 999999999)) <= val (of_Z 7200). Proof. concrete. Qed.
Lemma val_m7200 : val (of_Z (-7200)) = - val (of_Z 7200).
Proof.
  assert (of_Z (-7200) = Bopp (of_Z 7200)) as ->.
  { apply B2SF_inj. vm_compute. reflexivity. }
  unfold val. apply B2R_Bopp.
Qed.
Lemma v_m7200 : val (of_Z (-7200)) <= val (toSec (mkUtc (-7200) 0)). Proof. concrete. Qed.
Lemma v_m7201 : val (toSec (mkUtc (-7201) 999999999)) < val (of_Z (-7200)). Proof. concrete. Qed.

Lemma limit_ok d : in64 (sec d) -> normal d ->
  flt (of_Z 7200) (fabs (toSec d)) = (7200 * 1000000000 <? Z.abs (instant d))%Z.
Proof.
  intros I Nd. destruct (toSec_ok d I Nd) as (F & _).
  rewrite flt_ok; [|exact fin_7200|rewrite (proj2 (fabs_ok _)); exact F].
  rewrite (proj1 (fabs_ok _)).
  pose proof val_m7200 as Vm. unfold instant.
  destruct (Z.ltb_spec (7200 * 1000000000) (Z.abs (sec d * 1000000000 + nsec d))) as [L|L].
  - apply Rlt_bool_true. destruct (Z_le_gt_dec 0 (sec d)) as [G|G].
    + eapply Rlt_le_trans; [|apply Rle_abs]. destruct (Z_le_gt_dec 7201 (sec d)) as [G2|G2].
      * eapply Rlt_le_trans; [exact v_7201|]. apply toSec_mono; small.
      * eapply Rlt_le_trans; [exact v_7200_1|]. apply toSec_mono; small.
    + rewrite <- Rabs_Ropp. eapply Rlt_le_trans; [|apply Rle_abs].
      assert (val (toSec d) <= val (toSec (mkUtc (-7201) 999999999))) by (apply toSec_mono; small).
      pose proof v_m7201. lra.
  - apply Rlt_bool_false. apply Rabs_le. split.
    + replace (- val (of_Z 7200)) with (val (of_Z (-7200))) by lra.
      eapply Rle_trans; [exact v_m7200|]. apply toSec_mono; small.
    + destruct (Z_le_gt_dec 7200 (sec d)) as [G|G].
      * eapply Rle_trans; [|exact v_7200]. apply toSec_mono; small.
      * eapply Rle_trans; [|exact v_7199]. apply toSec_mono; small.
Qed.
End hours.

Local Open Scope N_scope.
Definition sane (t : utc) : Prop := normal t /\ (Z.abs (sec t) < 2 ^ 62)%Z.

Lemma verify_ok t toe : sane t -> sane toe ->
  verify t toe = Some (Z.abs (instant t - instant toe) <=? 7200 * 1000000000)%Z.
Proof.
  intros [Nt St] [Ne Se]. unfold verify.
  destruct (sub_ok t toe Nt Ne) as (d & E & Nd & Id); [unfold in64; lia|unfold in64; lia|].
  rewrite E. cbn [bind]. rewrite limit_ok; [|unfold in64, normal, instant in *; lia|exact Nd]. rewrite Id.
  f_equal. destruct (Z.ltb_spec (7200 * 1000000000) (Z.abs (instant t - instant toe)));
    destruct (Z.leb_spec (Z.abs (instant t - instant toe)) (7200 * 1000000000)); cbn [negb]; try reflexivity; lia.
Qed.

(** ** Observations *)
Lemma read_app a l b i n : length a = i -> length l = n -> read (a ++ l ++ b) i n = Some l.
Proof.
  revert a l i. induction n as [|n IH]; intros a l i A L; cbn [read].
  - destruct l; [reflexivity|discriminate].
  - destruct l as [|x l]; [discriminate|]. injection L as L.
    rewrite nth_error_app2 by lia. rewrite <- A, Nat.sub_diag. cbn [app nth_error bind].
    replace (a ++ x :: l ++ b) with ((a ++ [x]) ++ l ++ b) by (rewrite <- app_assoc; reflexivity).
    rewrite A, (IH (a ++ [x]) l (S i)); [reflexivity| |assumption]. rewrite app_length. cbn. lia.
Qed.
Lemma nth_at {A} (a : list A) x b i : length a = i -> nth_error (a ++ x :: b) i = Some x.
Proof. intros <-. rewrite nth_error_app2, Nat.sub_diag by lia. reflexivity. Qed.

(** what the code makes of a measurement *)
Definition seen (m : measurement) : obs :=
  mkObs (r_gnss m) (r_sv m) (get_freq (r_gnss m) (r_sig m) (r_freq m)) (r_pr m) (r_do m) (r_cp m).

Lemma block_length m : meas_ok m -> length (block m) = 32%nat.
Proof. intros (A & B & C & D). unfold block. rewrite !app_length, A, B, C, D. reflexivity. Qed.
Lemma blocks_length ms : Forall meas_ok ms -> length (concat (map block ms)) = (32 * length ms)%nat.
Proof.
  induction ms as [|m ms IH]; intros H; [reflexivity|]. inversion H as [|? ? A B]; subst.
  cbn [map concat length]. rewrite app_length, (block_length m A), IH by assumption. lia.
Qed.

Lemma observation_block a m b i : (i < 60)%nat -> meas_ok m -> length a = (16 + 32 * i)%nat ->
  observation (a ++ block m ++ b) i = Some (seen m).
Proof.
  intros I (H1 & H2 & H3 & H4) A. unfold observation. destruct (Nat.leb_spec 60 i); [lia|].
  destruct m as [pr cp dp g sv sg fr rs]. unfold block, seen. cbn [r_pr r_cp r_do r_gnss r_sv r_sig r_freq r_rest] in *.
  rewrite <- !app_assoc. cbn [app].
  rewrite (read_app a pr) by lia. cbn [bind].
  rewrite (app_assoc a pr). rewrite (read_app (a ++ pr) cp) by (rewrite ?app_length; lia). cbn [bind].
  rewrite (app_assoc (a ++ pr) cp). rewrite (read_app ((a ++ pr) ++ cp) dp) by (rewrite ?app_length; lia). cbn [bind].
  rewrite (app_assoc ((a ++ pr) ++ cp) dp). set (pre := ((a ++ pr) ++ cp) ++ dp).
  assert (P : length pre = (16 + 32 * i + 20)%nat) by (unfold pre; rewrite !app_length; lia). clearbody pre.
  rewrite (nth_at pre g) by lia. cbn [bind].
  replace (pre ++ g :: sv :: sg :: fr :: rs ++ b) with ((pre ++ [g]) ++ sv :: sg :: fr :: rs ++ b) by (rewrite <- app_assoc; reflexivity).
  rewrite (nth_at (pre ++ [g]) sv) by (rewrite app_length; cbn; lia). cbn [bind].
  replace ((pre ++ [g]) ++ sv :: sg :: fr :: rs ++ b) with ((pre ++ [g; sv]) ++ sg :: fr :: rs ++ b) by (rewrite <- !app_assoc; reflexivity).
  rewrite (nth_at (pre ++ [g; sv]) sg) by (rewrite app_length; cbn; lia). cbn [bind].
  replace ((pre ++ [g; sv]) ++ sg :: fr :: rs ++ b) with ((pre ++ [g; sv; sg]) ++ fr :: rs ++ b) by (rewrite <- !app_assoc; reflexivity).
  rewrite (nth_at (pre ++ [g; sv; sg]) fr) by (rewrite app_length; cbn; lia). reflexivity.
Qed.

Definition kept (ms : list measurement) : list obs := filter (fun o => (0 <? o_freq o)%Z) (map seen ms).
Lemma observations_blocks ms : forall a b i, Forall meas_ok ms -> length a = (16 + 32 * i)%nat -> (i + length ms <= 60)%nat ->
  observations (a ++ concat (map block ms) ++ b) i (length ms) = Some (kept ms).
Proof.
  induction ms as [|m ms IH]; intros a b i H A I; [reflexivity|]. inversion H as [|? ? M1 M2]; subst.
  cbn [length] in I. cbn [map concat length observations]. rewrite <- app_assoc.
  rewrite (observation_block a m) by (assumption || lia). cbn [bind].
  rewrite (app_assoc a (block m)), (IH (a ++ block m) b (S i) M2); [|rewrite app_length, (block_length m M1); lia|lia].
  cbn [bind]. unfold kept. cbn [map filter]. destruct (0 <? o_freq (seen m))%Z; reflexivity.
Qed.

Lemma head_length time tail ms : rawx_ok time tail ms -> length (time ++ [N.of_nat (length ms)] ++ tail) = 16%nat.
Proof. intros (A & B & _). rewrite !app_length, A, B. reflexivity. Qed.

Lemma rawx_seen time tail ms rest : rawx_ok time tail ms -> (length ms <= 60)%nat ->
  obs_gotUbx (rawx time tail ms ++ rest) = Some (kept ms).
Proof.
  intros O L. pose proof (head_length _ _ _ O) as HL. destruct O as (A & B & M). unfold obs_gotUbx, rawx.
  rewrite <- !app_assoc. cbn [app]. rewrite (nth_at time) by exact A. cbn [bind].
  unfold as_i8. destruct (N.ltb_spec (N.of_nat (length ms)) 128); [|lia].
  replace (Z.to_nat (Z.of_N (N.of_nat (length ms)))) with (length ms) by lia.
  replace (time ++ N.of_nat (length ms) :: tail ++ concat (map block ms) ++ rest)
    with ((time ++ [N.of_nat (length ms)] ++ tail) ++ concat (map block ms) ++ rest) by (rewrite <- !app_assoc; reflexivity).
  apply observations_blocks; [assumption|exact HL|lia].
Qed.

(** more than the array holds *)
Lemma observations_beyond buf : forall n i, (60 < i + n)%nat -> (0 < n)%nat -> observations buf i n = None.
Proof.
  induction n as [|n IH]; intros i H P; [lia|]. cbn [observations]. destruct (Nat.leb_spec 60 i) as [G|G].
  - unfold observation. destruct (Nat.leb_spec 60 i); [reflexivity|lia].
  - destruct (observation buf i); cbn [bind]; [|reflexivity]. rewrite (IH (S i)) by lia. reflexivity.
Qed.
Lemma rawx_beyond time tail ms rest : rawx_ok time tail ms -> (60 < length ms < 128)%nat ->
  obs_gotUbx (rawx time tail ms ++ rest) = None.
Proof.
  intros (A & B & M) L. unfold obs_gotUbx, rawx. rewrite <- !app_assoc. cbn [app]. rewrite (nth_at time) by exact A. cbn [bind].
  unfold as_i8. destruct (N.ltb_spec (N.of_nat (length ms)) 128); [|lia]. apply observations_beyond; lia.
Qed.

(** the frequency given to a measurement, against the carrier it was made on *)
Lemma freq_carrier g s f : match carrier g s f with
  | Some c => get_freq g s f = (c + 7 * spacing g s)%Z
  | None => (get_freq g s f <= 0)%Z
  end.
Proof.
  unfold carrier, spacing, signal, signals, List.find. cbn [fst snd].
  unfold get_freq, ID_GPS, ID_Galileo, ID_Glonass, base, slot.
  rewrite !(N.eqb_sym g), !(N.eqb_sym s).
  (destruct (N.eqb_spec 0 s) as [<-|_]; [|(destruct (N.eqb_spec 1 s) as [<-|_]; [|(destruct (N.eqb_spec 2 s) as [<-|_]; [|(destruct (N.eqb_spec 3 s) as [<-|_]; [|(destruct (N.eqb_spec 4 s) as [<-|_]; [|(destruct (N.eqb_spec 5 s) as [<-|_]; [|(destruct (N.eqb_spec 6 s) as [<-|_]; [|idtac])])])])])])]);
  (destruct (N.eqb_spec 0 g) as [<-|_]; [|(destruct (N.eqb_spec 2 g) as [<-|_]; [|(destruct (N.eqb_spec 6 g) as [<-|_]; [|idtac])])]);
    cbn [andb option_map fst snd N.eqb Pos.eqb]; lia.
Qed.
Lemma some_is {A} (a b : A) : Some a = Some b -> b = a. Proof. congruence. Qed.
Lemma carrier_positive g s f c : f < 256 -> carrier g s f = Some c -> (0 < c)%Z.
Proof.
  intros F. unfold carrier, signal, signals, List.find. cbn [fst snd]. unfold base, slot.
  repeat match goal with |- context [if ?b then _ else _] => destruct b; cbn [option_map fst snd]; [intros X; apply some_is in X; clear - F X; lia|] end.
  discriminate.
Qed.

Definition record_of (o : obs) : record := (o_gnss o, o_sat o, o_freq o, o_pr o, o_dop o, o_cp o).
Lemma kept_records ms : Forall (fun m => r_freq m < 256) ms ->
  map record_of (kept ms) = records (fun g s => 7 * spacing g s)%Z ms.
Proof.
  unfold kept, records. induction 1 as [|m ms F _ IH]; [reflexivity|]. cbn [map filter flat_map].
  pose proof (freq_carrier (r_gnss m) (r_sig m) (r_freq m)) as FC. pose proof (carrier_positive (r_gnss m) (r_sig m) (r_freq m)) as CP.
  assert (SP : (0 <= spacing (r_gnss m) (r_sig m))%Z).
  { unfold spacing, signal, signals, List.find. repeat match goal with |- context [if ?b then _ else _] => destruct b; cbn [option_map fst snd]; [lia|] end. cbn. lia. }
  unfold seen at 1. cbn [o_freq]. destruct (carrier (r_gnss m) (r_sig m) (r_freq m)) as [c|].
  - specialize (CP c F eq_refl). destruct (Z.ltb_spec 0 (get_freq (r_gnss m) (r_sig m) (r_freq m))) as [L|L]; [|lia].
    cbn [map app]. rewrite IH. unfold record_of at 1, seen. cbn [o_gnss o_sat o_freq o_pr o_dop o_cp]. rewrite FC. reflexivity.
  - destruct (Z.ltb_spec 0 (get_freq (r_gnss m) (r_sig m) (r_freq m))) as [L|L]; [lia|]. exact IH.
Qed.

(** ** Messages reach the listeners *)
Lemma listener_keys : listeners = [[key 2 0x13]; [key 2 0x15]]. Proof. reflexivity. Qed.
Lemma sub_one a b c i : a < 256 -> b < 256 -> c < 256 -> i < 256 -> subscribed [key a b] c i = (c =? a) && (i =? b).
Proof.
  intros A B C I. pose proof (subscribed_spec [(a, b)] c i C I) as S. cbn [fold_left fst snd] in S.
  change (subscribe [] a b) with [key a b] in S.
  assert (H : subscribed [key a b] c i = true <-> In (c, i) [(a, b)]) by (apply S; constructor; [split; assumption|constructor]).
  cbn [In] in H. destruct (subscribed [key a b] c i) eqn:E.
  - destruct H as [H _]. destruct (H eq_refl) as [X|[]]. injection X as -> ->. rewrite !N.eqb_refl. reflexivity.
  - destruct (N.eqb_spec c a) as [->|]; [|reflexivity]. destruct (N.eqb_spec i b) as [->|]; [|reflexivity].
    exfalso. destruct H as [_ H]. discriminate H. left. reflexivity.
Qed.
Lemma deliveries_heard m buf : msg_ok m -> deliveries listeners m buf =
  if is_nav m then [mkEv 0 (m_class m) (m_id m) buf] else if is_raw m then [mkEv 1 (m_class m) (m_id m) buf] else [].
Proof.
  intros (C & I & _). unfold deliveries. rewrite listener_keys. cbn [call_listeners].
  rewrite !sub_one by (assumption || lia). fold (is_nav m) (is_raw m).
  unfold is_nav, is_raw. destruct (N.eqb_spec (m_class m) 2); [|reflexivity].
  destruct (N.eqb_spec (m_id m) 0x13) as [->|]; [reflexivity|]. cbn [andb app]. destruct (N.eqb_spec (m_id m) 0x15); reflexivity.
Qed.

(** ** One call of an accumulator *)
Definition cur {E} (mk : N -> E) (w : list (N * E)) (sat : N) : E := match GatModel.find sat w with Some e => e | None => mk sat end.
Lemma cur_put {E} (mk : N -> E) w sat e k : cur mk ((sat, e) :: w) k = if N.eqb sat k then e else cur mk w k.
Proof. unfold cur. cbn [GatModel.find]. destruct (N.eqb sat k); reflexivity. Qed.
Lemma handle_inv {E} (mk : N -> E) p toe w sat now check w' l : handle mk p toe w sat now check = Some (w', l) ->
  exists b e, p (cur mk w sat) = Some (b, e) /\ w' = (sat, e) :: w /\
    (l = [] \/ b = true /\ l = [(now, sat, e)] /\ verify check (toe e) = Some true).
Proof.
  unfold handle. fold (cur mk w sat). destruct (p (cur mk w sat)) as [[b e]|]; cbn [bind fst snd]; [|discriminate].
  destruct b.
  - destruct (verify check (toe e)) as [ok|] eqn:V; cbn [bind]; [|discriminate]. intros X. exists true, e.
    assert (w' = (sat, e) :: w) by congruence. split; [reflexivity|]. split; [assumption|]. destruct ok.
    + right. split; [reflexivity|]. split; [congruence|exact V].
    + left. congruence.
  - intros X. exists false, e. split; [reflexivity|]. split; [congruence|]. left. congruence.
Qed.

(** ** The words handed to the parsers *)
Lemma word_bytes_app m r i : (4 * i + 4 <= length m)%nat -> word_bytes (m ++ r) i = word_bytes m i.
Proof. intros H. unfold word_bytes. rewrite !nth_error_app1 by lia. reflexivity. Qed.
Lemma unpack_app m r : forall n i sub, (4 * (i + n) <= length m)%nat -> GpsModel.unpack n i (m ++ r) sub = GpsModel.unpack n i m sub.
Proof.
  induction n as [|n IH]; intros i sub H; [reflexivity|]. cbn [GpsModel.unpack]. unfold word. rewrite word_bytes_app by lia.
  destruct (word_bytes m i) as [l|]; cbn [bind]; [|reflexivity]. destruct l as [|d [|c [|b [|a [|]]]]]; cbn [bind]; try reflexivity.
  destruct (setBit 24 sub (i * 24) _) as [sub'|]; cbn [bind]; [|reflexivity]. apply IH. lia.
Qed.
Lemma gps_words junk s m r : GpsModel.parse junk s (m ++ r) (length m) = GpsModel.parse junk s m (length m).
Proof. unfold GpsModel.parse. destruct (Nat.ltb_spec (length m) 40) as [L|L]; [reflexivity|]. rewrite (unpack_app m r 10 0) by lia. reflexivity. Qed.
Lemma swapped_app m r : forall n i, (4 * (i + n) <= length m)%nat -> swapped n i (m ++ r) = swapped n i m.
Proof.
  induction n as [|n IH]; intros i H; [reflexivity|]. cbn [swapped]. rewrite word_bytes_app by lia.
  destruct (word_bytes m i) as [w|]; cbn [bind]; [|reflexivity]. rewrite IH by lia. reflexivity.
Qed.
Lemma gal_words s m r : (32 <= length m)%nat -> GalModel.parse s (m ++ r) = GalModel.parse s m.
Proof. intros H. unfold GalModel.parse. rewrite (swapped_app m r 8 0) by lia. reflexivity. Qed.

(** ** The history of one satellite *)
Lemma gps_snoc junk h m s rs t b s' : GpsModel.run junk s h = Some (rs, t) -> GpsModel.parse junk t m (length m) = Some (b, s') ->
  GpsModel.run junk s (h ++ [m]) = Some (rs ++ [b], s').
Proof. intros E E1. rewrite GpsProofs.run_app, E. cbn [bind snd fst GpsModel.run]. rewrite E1. reflexivity. Qed.
Lemma gal_snoc h m s rs t b s' : GalModel.run s h = Some (rs, t) -> GalModel.parse t m = Some (b, s') ->
  GalModel.run s (h ++ [m]) = Some (rs ++ [b], s').
Proof. intros E E1. rewrite GalProofs.run_app, E. cbn [bind snd fst GalModel.run]. rewrite E1. reflexivity. Qed.

(** where an ephemeris in the log comes from *)
Definition from_sat {E} (run : E -> list (list N) -> option (list bool * E)) (toe : E -> utc) (mk : N -> E) (clock : list (utc * utc))
    (gnss : N) (ms : list msg) (t : utc) (sat : N) (e : E) : Prop :=
  exists h m r rs check, sent_by gnss sat ms = h ++ m :: r /\ run (mk sat) (h ++ [m]) = Some (rs ++ [true], e) /\
    In (t, check) clock /\ verify check (toe e) = Some true.
Definition entry_ok junk mk clock ms (x : entry) : Prop :=
  match x with
  | LogGps t sat e => from_sat (GpsModel.run junk) GpsModel.toe (mk_gps mk) clock 0 ms t sat e
  | LogGal t sat e => from_sat GalModel.run GalModel.toe (mk_gal mk) clock 2 ms t sat e
  | LogGlo t sat e => from_sat GloModel.run GloModel.toe (mk_glo mk) clock 6 ms t sat e
  | LogObs t o => True
  end.
Definition heard_so_far junk mk ms (g : gatherer) : Prop :=
  (forall sat, exists rs, GpsModel.run junk (mk_gps mk sat) (sent_by 0 sat ms) = Some (rs, cur (mk_gps mk) (w_gps g) sat)) /\
  (forall sat, exists rs, GalModel.run (mk_gal mk sat) (sent_by 2 sat ms) = Some (rs, cur (mk_gal mk) (w_gal g) sat)) /\
  (forall sat, exists rs, GloModel.run (mk_glo mk sat) (sent_by 6 sat ms) = Some (rs, cur (mk_glo mk) (w_glo g) sat)).

Lemma sent_snoc gnss sat ms m : sent_by gnss sat (ms ++ [m]) = sent_by gnss sat ms ++ (if about gnss sat m then [nav_words m] else []).
Proof. unfold sent_by. rewrite filter_app, map_app. cbn [filter]. destruct (about gnss sat m); reflexivity. Qed.
Lemma sent_more gnss sat ms r : exists x, sent_by gnss sat (ms ++ r) = sent_by gnss sat ms ++ x.
Proof. unfold sent_by. rewrite filter_app, map_app. eexists. reflexivity. Qed.
Lemma from_more {E} run toe (mk : N -> E) c c' gnss ms r t sat e : incl c c' ->
  from_sat run toe mk c gnss ms t sat e -> from_sat run toe mk c' gnss (ms ++ r) t sat e.
Proof.
  intros IC (h & m & q & rs & check & A & B & C & D). destruct (sent_more gnss sat ms r) as [x X].
  exists h, m, (q ++ x), rs, check. split; [rewrite X, A, <- app_assoc; reflexivity|]. split; [exact B|]. split; [apply IC; exact C|exact D].
Qed.
Lemma entry_more junk mk c c' ms r x : incl c c' -> entry_ok junk mk c ms x -> entry_ok junk mk c' (ms ++ r) x.
Proof. intros IC. destruct x; cbn [entry_ok]; try (apply from_more; exact IC). trivial. Qed.

Lemma nav_reads m rest : nav_ok m ->
  nth_error (m_payload m ++ rest) 0 = Some (nav_gnss m) /\ nth_error (m_payload m ++ rest) 1 = Some (nav_sat m) /\
  nth_error (m_payload m ++ rest) 4 = Some (nav_count m) /\ skipn 8 (m_payload m ++ rest) = nav_words m ++ rest.
Proof.
  intros (L & _). unfold nav_gnss, nav_sat, nav_count, nav_words. destruct (m_payload m) as [|a [|b [|c [|d [|e [|f [|g [|h p]]]]]]]]; cbn [length] in L; try lia.
  repeat split; reflexivity.
Qed.

Definition is_eph (x : entry) : bool := match x with LogObs _ _ => false | _ => true end.
Lemma nav_step junk mk g now check m rest ms g' l : is_nav m = true -> nav_ok m -> heard_so_far junk mk ms g ->
  nav_gotUbx junk mk g now check (m_payload m ++ rest) = Some (g', l) ->
  heard_so_far junk mk (ms ++ [m]) g' /\ Forall (entry_ok junk mk [(now, check)] (ms ++ [m])) l /\ forallb is_eph l = true.
Proof.
  intros NV O (HG & HE & HR). destruct (nav_reads m rest O) as (R0 & R1 & R4 & RS). destruct O as (_ & LW & O2 & O6).
  unfold nav_gotUbx. rewrite R0, R1, R4, RS. cbn [bind]. clear R0 R1 R4 RS.
  assert (AB : forall k s, about k s m = (nav_gnss m =? k) && (nav_sat m =? s)) by (intros; unfold about; rewrite NV; reflexivity).
  replace (N.to_nat (nav_count m) * 4)%nat with (length (nav_words m)) by lia.
  unfold ID_GPS, ID_Glonass, ID_Galileo.
  destruct (N.eqb_spec (nav_gnss m) 0) as [G|G0]; [|destruct (N.eqb_spec (nav_gnss m) 6) as [G|G6]; [|destruct (N.eqb_spec (nav_gnss m) 2) as [G|G2]]].
  - destruct (handle _ _ _ _ _ _ _) as [[w' l0]|] eqn:EH; cbn [bind fst snd]; [|discriminate]. intros X.
    assert (g' = mkGat w' (w_gal g) (w_glo g)) as -> by congruence.
    assert (l = map (fun q => LogGps (fst (fst q)) (snd (fst q)) (snd q)) l0) as -> by congruence. clear X.
    apply handle_inv in EH. destruct EH as (b & e & P & -> & LO). rewrite gps_words in P.
    destruct (HG (nav_sat m)) as (rs & RG). pose proof (gps_snoc _ _ _ _ _ _ _ _ RG P) as RN.
    split; [split; [|split]|split].
    + intros s. rewrite sent_snoc, AB, G. cbn [w_gps andb N.eqb]. rewrite cur_put. destruct (N.eqb_spec (nav_sat m) s) as [<-|].
      * exists (rs ++ [b]). exact RN.
      * rewrite app_nil_r. apply HG.
    + intros s. rewrite sent_snoc, AB, G. cbn [w_gal andb N.eqb]. rewrite app_nil_r. apply HE.
    + intros s. rewrite sent_snoc, AB, G. cbn [w_glo andb N.eqb]. rewrite app_nil_r. apply HR.
    + destruct LO as [->|(-> & -> & V)]; cbn [map fst snd]; [constructor|]. constructor; [|constructor]. cbn [entry_ok].
      exists (sent_by 0 (nav_sat m) ms), (nav_words m), [], rs, check.
      split; [rewrite sent_snoc, AB, G, !N.eqb_refl; reflexivity|]. split; [exact RN|]. split; [left; reflexivity|exact V].
    + destruct LO as [->|(-> & -> & V)]; reflexivity.
  - destruct (handle _ _ _ _ _ _ _) as [[w' l0]|] eqn:EH; cbn [bind fst snd]; [|discriminate]. intros X.
    assert (g' = mkGat (w_gps g) (w_gal g) w') as -> by congruence.
    assert (l = map (fun q => LogGlo (fst (fst q)) (snd (fst q)) (snd q)) l0) as -> by congruence. clear X.
    apply handle_inv in EH. destruct EH as (b & e & P & -> & LO).
    rewrite firstn_app, Nat.sub_diag, firstn_O, app_nil_r, firstn_all in P.
    destruct (HR (nav_sat m)) as (rs & RG). pose proof (GloProofs.run_snoc _ _ _ _ _ _ _ RG P) as RN.
    split; [split; [|split]|split].
    + intros s. rewrite sent_snoc, AB, G. cbn [w_gps andb N.eqb]. rewrite app_nil_r. apply HG.
    + intros s. rewrite sent_snoc, AB, G. cbn [w_gal andb N.eqb Pos.eqb]. rewrite app_nil_r. apply HE.
    + intros s. rewrite sent_snoc, AB, G. cbn [w_glo andb N.eqb Pos.eqb]. rewrite cur_put. destruct (N.eqb_spec (nav_sat m) s) as [<-|].
      * exists (rs ++ [b]). exact RN.
      * rewrite app_nil_r. apply HR.
    + destruct LO as [->|(-> & -> & V)]; cbn [map fst snd]; [constructor|]. constructor; [|constructor]. cbn [entry_ok].
      exists (sent_by 6 (nav_sat m) ms), (nav_words m), [], rs, check.
      split; [rewrite sent_snoc, AB, G, !N.eqb_refl; reflexivity|]. split; [exact RN|]. split; [left; reflexivity|exact V].
    + destruct LO as [->|(-> & -> & V)]; reflexivity.
  - destruct (handle _ _ _ _ _ _ _) as [[w' l0]|] eqn:EH; cbn [bind fst snd]; [|discriminate]. intros X.
    assert (g' = mkGat (w_gps g) w' (w_glo g)) as -> by congruence.
    assert (l = map (fun q => LogGal (fst (fst q)) (snd (fst q)) (snd q)) l0) as -> by congruence. clear X.
    apply handle_inv in EH. destruct EH as (b & e & P & -> & LO). rewrite gal_words in P by (specialize (O2 G); lia).
    destruct (HE (nav_sat m)) as (rs & RG). pose proof (gal_snoc _ _ _ _ _ _ _ RG P) as RN.
    split; [split; [|split]|split].
    + intros s. rewrite sent_snoc, AB, G. cbn [w_gps andb N.eqb]. rewrite app_nil_r. apply HG.
    + intros s. rewrite sent_snoc, AB, G. cbn [w_gal andb N.eqb Pos.eqb]. rewrite cur_put. destruct (N.eqb_spec (nav_sat m) s) as [<-|].
      * exists (rs ++ [b]). exact RN.
      * rewrite app_nil_r. apply HE.
    + intros s. rewrite sent_snoc, AB, G. cbn [w_glo andb N.eqb Pos.eqb]. rewrite app_nil_r. apply HR.
    + destruct LO as [->|(-> & -> & V)]; cbn [map fst snd]; [constructor|]. constructor; [|constructor]. cbn [entry_ok].
      exists (sent_by 2 (nav_sat m) ms), (nav_words m), [], rs, check.
      split; [rewrite sent_snoc, AB, G, !N.eqb_refl; reflexivity|]. split; [exact RN|]. split; [left; reflexivity|exact V].
    + destruct LO as [->|(-> & -> & V)]; reflexivity.
  - intros X. assert (g' = g) as -> by congruence. assert (l = []) as -> by congruence.
    split; [|split; [constructor|reflexivity]].
    split; [|split]; intros s; rewrite sent_snoc, AB;
      rewrite ?(proj2 (N.eqb_neq _ _) G0), ?(proj2 (N.eqb_neq _ _) G2), ?(proj2 (N.eqb_neq _ _) G6); cbn [andb]; rewrite app_nil_r; auto.
Qed.

(** ** All messages *)
Definition obs_of (x : entry) : list (utc * record) := match x with LogObs t o => [(t, record_of o)] | _ => [] end.
Definition expected (clock : list (utc * utc)) (l : list (option (list measurement))) : list (utc * record) :=
  flat_map (fun p => match snd p with
    | Some rs => map (pair (fst (fst p))) (records (fun g s => 7 * spacing g s)%Z rs) | None => [] end) (combine clock l).

Lemma no_obs l : forallb is_eph l = true -> flat_map obs_of l = [].
Proof. induction l as [|x l IH]; [reflexivity|]. cbn [forallb flat_map]. destruct x; cbn [is_eph andb obs_of app]; try exact IH. discriminate. Qed.
Lemma obs_logged t l : flat_map obs_of (map (LogObs t) l) = map (pair t) (map record_of l).
Proof. induction l as [|o l IH]; [reflexivity|]. cbn [map flat_map obs_of app]. rewrite IH. reflexivity. Qed.

Lemma split_buffer m buf : firstn (length (m_payload m)) buf = m_payload m -> exists rest, buf = m_payload m ++ rest.
Proof. intros H. exists (skipn (length (m_payload m)) buf). rewrite <- H at 1. rewrite firstn_skipn. reflexivity. Qed.

Lemma bytes_freq time tail rs : rawx_ok time tail rs -> bytes_ok (rawx time tail rs) -> Forall (fun m => r_freq m < 256) rs.
Proof.
  intros _ B. unfold rawx in B. apply Forall_app in B. destruct B as [_ B]. apply Forall_app in B. destruct B as [_ B]. apply Forall_app in B. destruct B as [_ B].
  induction rs as [|m rs IH]; [constructor|]. cbn [map concat] in B. apply Forall_app in B. destruct B as [B1 B2]. constructor; [|apply IH; exact B2].
  unfold block in B1. do 3 (apply Forall_app in B1; destruct B1 as [_ B1]). apply Forall_app in B1. destruct B1 as [B1 _].
  inversion B1 as [|? ? _ B3]; subst. inversion B3 as [|? ? _ B4]; subst. inversion B4 as [|? ? _ B5]; subst. inversion B5; assumption.
Qed.

Definition small_raw (m : option (list measurement)) : Prop := match m with Some rs => (length rs <= 60)%nat | None => True end.
Lemma gather_all junk mk : forall ms evs, delivered listeners ms evs -> forall clock g g' log done raws,
  Forall msg_ok ms -> Forall (fun m => is_nav m = true -> nav_ok m) ms -> measured ms raws -> Forall small_raw raws ->
  length clock = length evs -> gather junk mk g (combine clock evs) = Some (g', log) -> heard_so_far junk mk done g ->
  heard_so_far junk mk (done ++ ms) g' /\ Forall (entry_ok junk mk clock (done ++ ms)) log /\
  flat_map obs_of log = expected clock raws.
Proof.
  induction 1 as [|m ms buf evs FB _ _ IH]; intros clock g g' log done raws MO NO ME SR LC EG HS.
  - destruct clock; [|discriminate]. cbn [combine gather] in EG. assert (g' = g) as -> by congruence. assert (log = []) as -> by congruence.
    rewrite app_nil_r. split; [exact HS|]. split; [constructor|]. reflexivity.
  - inversion MO as [|? ? M1 M2]; subst. inversion NO as [|? ? N1 N2]; subst. rewrite (deliveries_heard m buf M1) in *.
    destruct (split_buffer m buf FB) as [rest ->].
    assert (AP : done ++ m :: ms = (done ++ [m]) ++ ms) by (rewrite <- app_assoc; reflexivity). rewrite AP.
    destruct (is_nav m) eqn:NV.
    + (* a navigation message *)
      assert (exists raws', raws = None :: raws' /\ measured ms raws') as (raws' & -> & ME').
      { inversion ME as [|? ? ? A B|? ? ? A B|? ? ? ? ? ? A]; subst.
        - unfold heard in A. rewrite NV in A. discriminate.
        - eauto.
        - unfold is_nav, is_raw in *. apply andb_prop in NV, A. destruct NV as [_ NV], A as [_ A]. apply N.eqb_eq in NV, A. congruence. }
      inversion SR as [|? ? _ SR']; subst. destruct clock as [|[now check] clock]; [discriminate|]. cbn [app length] in LC.
      cbn [app combine gather callback ev_listener ev_buffer] in EG.
      destruct (nav_gotUbx junk mk g now check (m_payload m ++ rest)) as [[g1 l1]|] eqn:E1; cbn [bind fst snd] in EG; [|discriminate].
      destruct (gather junk mk g1 (combine clock evs)) as [[g2 l2]|] eqn:E2; cbn [bind fst snd] in EG; [|discriminate].
      destruct (nav_step junk mk g now check m rest done g1 l1 NV (N1 eq_refl) HS E1) as (H1 & F1 & O1).
      destruct (IH clock g1 g2 l2 (done ++ [m]) raws' M2 N2 ME' SR' ltac:(lia) E2 H1) as (H2 & F2 & O2).
      assert (g' = g2) as -> by congruence. assert (log = l1 ++ l2) as -> by congruence.
      split; [exact H2|]. split.
      * apply Forall_app. split.
        -- eapply Forall_impl; [|exact F1]. intros x. apply entry_more. intros y [<-|[]]. left. reflexivity.
        -- eapply Forall_impl; [|exact F2]. intros x X. rewrite <- (app_nil_r ((done ++ [m]) ++ ms)). revert X. apply entry_more. apply incl_tl, incl_refl.
      * rewrite flat_map_app, (no_obs l1 O1), O2. reflexivity.
    + destruct (is_raw m) eqn:RW.
      * (* a raw message *)
        assert (exists time tail rs raws', raws = Some rs :: raws' /\ m_payload m = rawx time tail rs /\ rawx_ok time tail rs /\ measured ms raws') as (time & tail & rs & raws' & -> & PA & RO & ME').
        { inversion ME as [|? ? ? A B|? ? ? A B|? ? ? ? ? ? A]; subst.
          - unfold heard in A. rewrite NV, RW in A. discriminate.
          - congruence.
          - eauto 10. }
        inversion SR as [|? ? SR1 SR']; subst. cbn [small_raw] in SR1. destruct clock as [|[now check] clock]; [discriminate|]. cbn [app length] in LC.
        cbn [app combine gather callback ev_listener ev_buffer] in EG.
        assert (BF : Forall (fun q => r_freq q < 256) rs) by (apply (bytes_freq time tail); [assumption|]; rewrite <- PA; apply M1).
        rewrite PA, (rawx_seen time tail rs rest RO SR1) in EG. cbn [bind fst snd] in EG.
        destruct (gather junk mk g (combine clock evs)) as [[g2 l2]|] eqn:E2; cbn [bind fst snd] in EG; [|discriminate].
        assert (H1 : heard_so_far junk mk (done ++ [m]) g).
        { destruct HS as (HG & HE & HR). split; [|split]; intros s; rewrite sent_snoc; unfold about; rewrite NV; cbn [andb]; rewrite app_nil_r; auto. }
        destruct (IH clock g g2 l2 (done ++ [m]) raws' M2 N2 ME' SR' ltac:(lia) E2 H1) as (H2 & F2 & O2).
        assert (g' = g2) as -> by congruence. assert (log = map (LogObs now) (kept rs) ++ l2) as -> by congruence.
        split; [exact H2|]. split.
        -- apply Forall_app. split.
           ++ apply Forall_forall. intros x X. apply in_map_iff in X. destruct X as (o & <- & _). exact Logic.I.
           ++ eapply Forall_impl; [|exact F2]. intros x X. rewrite <- (app_nil_r ((done ++ [m]) ++ ms)). revert X. apply entry_more. apply incl_tl, incl_refl.
        -- rewrite flat_map_app, obs_logged, (kept_records rs BF), O2. reflexivity.
      * (* another message *)
        assert (ME' : measured ms raws).
        { inversion ME as [|? ? ? A B|? ? ? A B|? ? ? ? ? ? A]; subst; [assumption|congruence|congruence]. }
        cbn [app] in LC, EG.
        assert (H1 : heard_so_far junk mk (done ++ [m]) g).
        { destruct HS as (HG & HE & HR). split; [|split]; intros s; rewrite sent_snoc; unfold about; rewrite NV; cbn [andb]; rewrite app_nil_r; auto. }
        exact (IH clock g g' log (done ++ [m]) raws M2 N2 ME' SR LC EG H1).
Qed.

Lemma nothing_heard junk mk : heard_so_far junk mk [] nothing.
Proof. split; [|split]; intros s; exists []; reflexivity. Qed.

Theorem gathered junk mk ms chunks s s' evs clock g log raws : Forall msg_ok ms -> idle s -> concat chunks = concat (map frame ms) ->
  receive_chunks listeners s chunks = Some (s', evs) ->
  Forall (fun m => is_nav m = true -> nav_ok m) ms -> measured ms raws -> Forall small_raw raws ->
  length clock = length evs -> gather junk mk nothing (combine clock evs) = Some (g, log) ->
  Forall (entry_ok junk mk clock ms) log /\ flat_map obs_of log = expected clock raws.
Proof.
  intros MO ID E RC NO ME SR LC EG.
  rewrite receive_chunks_concat, E in RC. destruct (receive_frames listeners ms s MO ID) as (s2 & e2 & R & D & _).
  rewrite R in RC. assert (e2 = evs) as <- by congruence.
  destruct (gather_all junk mk ms e2 D clock nothing g log [] raws MO NO ME SR LC EG (nothing_heard junk mk)) as (_ & A & B). exact (conj A B).
Qed.
