(** Proofs about integrated inertial measurements: times and dead reckoning *)
From Coq Require Import ZArith Bool Reals List Lia Lra Psatz.
From Flocq Require Import Core.
From Verif Require Import UtcTimeModel UtcTimeSpec UtcTimeProofs Float64 QuantizedModel QuantizedProofs RotModel RotSpec RotProofs RotExpProofs LinSpec ImuModel ImuSpec.
Import ListNotations.
Local Open Scope R_scope.

(** ** Times *)
Definition hq := val quantum.
Lemma finite_quantum : finite quantum = true. Proof. vm_compute. reflexivity. Qed.
Lemma q_100000 : hq <= val (QuantizedModel.toSec (mkUtc 0 100000)). Proof. unfold hq. concrete. Qed.
Lemma q_99999 : val (QuantizedModel.toSec (mkUtc 0 99999)) < hq. Proof. unfold hq. concrete. Qed.
Lemma q_m1 : val (QuantizedModel.toSec (mkUtc (-1) 999999999)) < hq. Proof. unfold hq. concrete. Qed.
Lemma q_1s : hq <= val (QuantizedModel.toSec (mkUtc 1 0)). Proof. unfold hq. concrete. Qed.
Lemma quantum_le d : in64 (sec d) -> normal d -> fle quantum (QuantizedModel.toSec d) = (100000 <=? instant d)%Z.
Proof.
  intros S N. rewrite fle_ok by (exact finite_quantum || apply toSec_ok; assumption). fold hq. unfold instant.
  destruct (Z.leb_spec 100000 (sec d * 1000000000 + nsec d)) as [L|L].
  - apply Rle_bool_true. destruct (Z_le_gt_dec 1 (sec d)) as [G|G].
    + eapply Rle_trans; [exact q_1s|]. apply toSec_mono; small.
    + assert (sec d = 0)%Z by small. eapply Rle_trans; [exact q_100000|]. apply toSec_mono; small.
  - apply Rle_bool_false. destruct (Z_le_gt_dec 0 (sec d)) as [G|G].
    + assert (sec d = 0)%Z by small. eapply Rle_lt_trans; [|exact q_99999]. apply toSec_mono; small.
    + eapply Rle_lt_trans; [|exact q_m1]. apply toSec_mono; small.
Qed.
Lemma good_sub a b : good_time a -> good_time b ->
  exists d, sub a b = Some d /\ normal d /\ in64 (sec d) /\ instant d = (instant a - instant b)%Z /\ seconds d = gap b a.
Proof.
  intros [Na Ra] [Nb Rb]. destruct (sub_two a b Na Nb) as (d & E & N & I & D).
  { unfold diff_ok. lia. }
  exists d. repeat split; try assumption; try apply N; try apply I. unfold seconds, gap. rewrite <- D. unfold instant. rewrite plus_IZR, mult_IZR. field.
Qed.
Lemma gap_trans a b c : gap a c = gap a b + gap b c.
Proof. unfold gap. rewrite !minus_IZR. field. Qed.
Lemma gap_self a : gap a a = 0.
Proof. unfold gap. rewrite Z.sub_diag. field. Qed.
Lemma gap_pos a b : (instant a < instant b)%Z -> 0 < gap a b.
Proof. intros H. unfold gap. apply Rdiv_lt_0_compat; [apply IZR_lt; lia|lra]. Qed.

(** ** What a history is *)
Lemma qexp_some v : exists q, qexp v = Some q /\ unit q.
Proof. destruct (qexp_turn v) as (k & q & _ & _ & E & U & _). exists q. split; assumption. Qed.
Lemma propagate_some ba bg rr h s dt : exists h', propagate ba bg rr h s dt = Some h' /\ z h' = s /\ (unit (gamma (state h)) -> unit (gamma (state h'))).
Proof.
  unfold propagate. cbv zeta. unfold st_add. destruct (qexp_some (egamma (err_scale dt (state_dot (state h) (vsub (average (accel s) (accel (z h))) ba) (vsub (average (gyro s) (gyro (z h))) bg))))) as (e & E & U).
  rewrite E. unfold bind. eexists. split; [reflexivity|]. split; [reflexivity|]. cbn [state gamma]. intros G. apply unit_otimes; assumption.
Qed.
Lemma back_snoc ba bg rr l h : back (mkImu ba bg rr (l ++ [h])) = h.
Proof. unfold back. cbn [history]. apply last_last. Qed.
Lemma front_app m l : history m <> [] -> hd nothing (history m ++ l) = front m.
Proof. unfold front. destruct (history m); [contradiction|reflexivity]. Qed.

(** One call of integrate *)
Lemma integrate_step m s : good (z (back m)) -> good s -> 
  integrate m s = if (instant (tf m) + 100000 <=? instant (stamp s))%Z then
    match propagate (accel_bias m) (gyro_bias m) (noise m) (back m) s (gap (tf m) (stamp s)) with
    | Some h => Done (mkImu (accel_bias m) (gyro_bias m) (noise m) (history m ++ [h])) | None => NaN end
  else Exits.
Proof.
  intros G1 G2. unfold integrate. destruct (good_sub (stamp s) (tf m) G2 G1) as (d & E & N & I & D & S). rewrite E. cbn [of_time and_then].
  rewrite quantum_le by assumption. rewrite D, S.
  replace (100000 <=? instant (stamp s) - instant (tf m))%Z with (instant (tf m) + 100000 <=? instant (stamp s))%Z.
  - destruct (_ <=? _)%Z; [|reflexivity]. destruct (propagate _ _ _ _ _ _); reflexivity.
  - destruct (Z.leb_spec (instant (tf m) + 100000) (instant (stamp s))), (Z.leb_spec 100000 (instant (stamp s) - instant (tf m))); lia || reflexivity.
Qed.
Lemma integrate_done m s : good (z (back m)) -> good s -> (instant (tf m) + 100000 <= instant (stamp s))%Z ->
  exists h, propagate (accel_bias m) (gyro_bias m) (noise m) (back m) s (gap (tf m) (stamp s)) = Some h /\ z h = s /\
    (unit (gamma (state (back m))) -> unit (gamma (state h))) /\
    integrate m s = Done (mkImu (accel_bias m) (gyro_bias m) (noise m) (history m ++ [h])).
Proof.
  intros G1 G2 L. rewrite (integrate_step m s G1 G2). destruct (Z.leb_spec (instant (tf m) + 100000) (instant (stamp s))); [|lia].
  destruct (propagate_some (accel_bias m) (gyro_bias m) (noise m) (back m) s (gap (tf m) (stamp s))) as (h & E & Z & U).
  rewrite E. exists h. repeat split; assumption.
Qed.

(** An invariant of every history that [integrate] keeps holds of every history it builds *)
Definition reach (m m' : imu) (l : list sample) : Prop := integrate_all m l = Done m'.
Lemma integrate_all_app m l1 l2 : integrate_all m (l1 ++ l2) = run m' <- integrate_all m l1; integrate_all m' l2.
Proof.
  revert m. induction l1 as [|s r IH]; intros m; [reflexivity|]. cbn [app integrate_all]. destruct (integrate m s) as [m1| | |]; cbn [and_then]; [apply IH|reflexivity..].
Qed.
Lemma spaced_ok l : forall m, history m <> [] -> good (z (back m)) -> Forall good l ->
  (spaced (z (back m)) l -> exists m', integrate_all m l = Done m') /\ (~ spaced (z (back m)) l -> integrate_all m l = Exits).
Proof.
  induction l as [|s r IH]; intros m NE G F.
  - split; [intros _; exists m; reflexivity|]. intros H. destruct H. exact I.
  - apply Forall_cons_iff in F. destruct F as [Gs Fr]. cbn [integrate_all spaced].
    destruct (Z_le_gt_dec (instant (tf m) + 100000) (instant (stamp s))) as [L|L].
    + destruct (integrate_done m s G Gs L) as (h & P & Z & U & E). rewrite E. cbn [and_then].
      destruct (IH (mkImu (accel_bias m) (gyro_bias m) (noise m) (history m ++ [h]))) as [A B].
      * cbn [history]. intros C. apply app_eq_nil in C. destruct C; discriminate.
      * rewrite back_snoc, Z. exact Gs.
      * exact Fr.
      * rewrite back_snoc, Z in A, B. split; [intros [_ S]; exact (A S)|]. intros N. apply B. intros S. apply N. split; [exact L|exact S].
    + split; [intros [S _]; unfold tf in L; lia|]. intros _. rewrite (integrate_step m s G Gs). destruct (Z.leb_spec (instant (tf m) + 100000) (instant (stamp s))); [lia|reflexivity].
Qed.

(** What stays the same *)
Record grown (m m' : imu) (l : list sample) : Prop := {
  g_ab : accel_bias m' = accel_bias m; g_gb : gyro_bias m' = gyro_bias m; g_noise : noise m' = noise m;
  g_samples : map z (history m') = map z (history m) ++ l; g_nonempty : history m' <> []; g_front : front m' = front m;
  g_unit : unit (gamma (state (back m))) -> unit (gamma (state (back m')));
  g_last : z (back m') = last l (z (back m)); g_time : l <> [] -> (instant (tf m) < instant (tf m'))%Z;
  g_len : length (history m') = (length (history m) + length l)%nat }.
Lemma last_cons (A : Type) (l : list A) a d : last (a :: l) d = last l a.
Proof. revert a d. induction l as [|b r IH]; intros a d; [reflexivity|]. change (last (b :: r) d = last (b :: r) a). rewrite !IH. reflexivity. Qed.
Lemma reach_grown l : forall m m', history m <> [] -> good (z (back m)) -> Forall good l -> reach m m' l -> grown m m' l.
Proof.
  induction l as [|s r IH]; intros m m' NE G F E.
  - injection E as <-. constructor; try reflexivity; try assumption; try tauto. { rewrite app_nil_r. reflexivity. } { cbn [length]. lia. }
  - apply Forall_cons_iff in F. destruct F as [Gs Fr]. unfold reach in E. cbn [integrate_all] in E.
    destruct (Z_le_gt_dec (instant (tf m) + 100000) (instant (stamp s))) as [L|L].
    + destruct (integrate_done m s G Gs L) as (h & P & Z & U & E1). rewrite E1 in E. cbn [and_then] in E.
      set (m1 := mkImu (accel_bias m) (gyro_bias m) (noise m) (history m ++ [h])) in *.
      assert (B1 : back m1 = h) by apply back_snoc.
      assert (NE1 : history m1 <> []) by (intros C; apply app_eq_nil in C; destruct C; discriminate).
      destruct (IH m1 m' NE1 ltac:(rewrite B1, Z; exact Gs) Fr E) as [a b c d e f g i j k]. constructor; try assumption.
      * rewrite d. unfold m1. cbn [history]. rewrite map_app. cbn [map]. rewrite Z, <- app_assoc. reflexivity.
      * rewrite f. unfold m1, front at 1. cbn [history]. apply front_app, NE.
      * intros H. apply g. rewrite B1. apply U, H.
      * rewrite last_cons, i, B1, Z. reflexivity.
      * intros _. assert (T1 : tf m1 = stamp s) by (unfold tf; rewrite B1, Z; reflexivity). destruct r as [|s' r'].
        { injection E as <-. rewrite T1. lia. }
        { specialize (j ltac:(discriminate)). rewrite T1 in j. lia. }
      * rewrite k. unfold m1. cbn [history length]. rewrite app_length. cbn [length]. lia.
    + rewrite (integrate_step m s G Gs) in E. destruct (Z.leb_spec (instant (tf m) + 100000) (instant (stamp s))); [lia|discriminate E].
Qed.

(** ** Dead reckoning *)
Definition follows (p : dquat) (v : vec) (m : imu) (n : nav) : Prop :=
  let T := gap (t0 m) (tf m) in let x := state (back m) in
  att n = otimes (real p) (gamma x) /\
  pos n = vadd (vadd (translation p) (rota (real p) (vadd (vscale T v) (alpha x)))) (vscale (T * T / 2) gravity) /\
  vel n = vadd (rota (real p) (vadd v (beta x))) (vscale T gravity).
Lemma rota_scale q s v : rota q (vscale s v) = vscale s (rota q v).
Proof. rewrite !rota_matrix. apply mapply_scale. Qed.
Lemma rotp_scale q s v : rotp q (vscale s v) = vscale s (rotp q v).
Proof. rewrite !rotp_matrix. apply mapply_scale. Qed.
Lemma rotp_add q a b : rotp q (vadd a b) = vadd (rotp q a) (rotp q b).
Proof. rewrite !rotp_matrix. apply mapply_add. Qed.
Lemma half_sum f g b : vsub (vscale (1 / 2) (vadd f g)) b = vsub (average g f) b.
Proof. destruct f, g, b. unfold average. vec_eq. f_equal; field. Qed.
Lemma follow_step p v m s h n : unit (real p) -> unit (gamma (state (back m))) -> history m <> [] -> z h = s ->
  propagate (accel_bias m) (gyro_bias m) (noise m) (back m) s (gap (tf m) (stamp s)) = Some h -> follows p v m n ->
  exists n', strapdown (accel_bias m) (gyro_bias m) (z (back m)) s n = Some n' /\
    follows p v (mkImu (accel_bias m) (gyro_bias m) (noise m) (history m ++ [h])) n'.
Proof.
  intros Up Ux NE Zh P (A & B & C). unfold propagate in P. cbv zeta in P. unfold st_add in P. cbn [err_scale state_dot ealpha ebeta egamma] in P.
  unfold strapdown. cbv zeta.
  rewrite !half_sum. fold (tf m). set (dt := gap (tf m) (stamp s)) in *.
  set (f := vsub (average (accel s) (accel (z (back m)))) (accel_bias m)) in *. set (w := vsub (average (gyro s) (gyro (z (back m)))) (gyro_bias m)) in *.
  destruct (qexp (vscale dt w)) as [e|]; [|discriminate P]. unfold bind in P. injection P as P. unfold bind. eexists. split; [reflexivity|].
  unfold follows. cbv zeta. rewrite back_snoc. cbn [att pos vel].
  assert (T0 : t0 (mkImu (accel_bias m) (gyro_bias m) (noise m) (history m ++ [h])) = t0 m) by (unfold t0, front at 1; cbn [history]; rewrite front_app by exact NE; reflexivity).
  assert (TF : tf (mkImu (accel_bias m) (gyro_bias m) (noise m) (history m ++ [h])) = stamp s) by (unfold tf; rewrite back_snoc, Zh; reflexivity).
  rewrite T0, TF. rewrite (gap_trans (t0 m) (tf m) (stamp s)). fold dt. set (T := gap (t0 m) (tf m)) in *.
  rewrite A, B, C. rewrite <- P. cbn [state alpha beta gamma].
  split; [apply otimes_assoc|]. rewrite rota_otimes by assumption. rewrite ?rota_add, ?rota_scale, ?rota_add, ?rota_scale.
  set (rv := rota (real p) v). set (ra := rota (real p) (alpha _)). set (rb := rota (real p) (beta _)). set (rf := rota (real p) (rota _ f)). clearbody rv ra rb rf T dt. clear.
  destruct rv, ra, rb, rf, (translation p). unfold gravity. split; vec_eq; f_equal; field.
Qed.
Lemma follow_all p v l : unit (real p) -> forall m m' n, history m <> [] -> good (z (back m)) -> Forall good l -> unit (gamma (state (back m))) -> reach m m' l ->
  follows p v m n -> exists n', dead_reckoning (accel_bias m) (gyro_bias m) (z (back m)) l n = Some n' /\ follows p v m' n'.
Proof.
  intros Up. induction l as [|s r IH]; intros m m' n NE G F Ux E FO.
  - injection E as <-. exists n. split; [reflexivity|exact FO].
  - apply Forall_cons_iff in F. destruct F as [Gs Fr]. unfold reach in E. cbn [integrate_all] in E.
    destruct (Z_le_gt_dec (instant (tf m) + 100000) (instant (stamp s))) as [L|L].
    + destruct (integrate_done m s G Gs L) as (h & P & Z & U & E1). rewrite E1 in E. cbn [and_then] in E.
      destruct (follow_step p v m s h n Up Ux NE Z P FO) as (n1 & S1 & F1). cbn [dead_reckoning]. rewrite S1. unfold bind at 1.
      set (m1 := mkImu (accel_bias m) (gyro_bias m) (noise m) (history m ++ [h])) in *. assert (B1 : back m1 = h) by apply back_snoc.
      destruct (IH m1 m' n1) as (n2 & D2 & F2); try assumption.
      * intros C. apply app_eq_nil in C. destruct C; discriminate.
      * rewrite B1, Z. exact Gs.
      * rewrite B1. apply U, Ux.
      * exists n2. rewrite B1, Z in D2. split; assumption.
    + rewrite (integrate_step m s G Gs) in E. destruct (Z.leb_spec (instant (tf m) + 100000) (instant (stamp s))); [lia|discriminate E].
Qed.
Lemma follows_start z0 ba bg rr p v : follows p v (start z0 ba bg rr) (nav_of p v).
Proof.
  unfold follows. cbv zeta. change (back (start z0 ba bg rr)) with (mkItem z0 st_id lzero lzero). cbn [state gamma alpha beta st_id].
  assert (t0 (start z0 ba bg rr) = tf (start z0 ba bg rr)) as -> by reflexivity. rewrite gap_self. unfold nav_of. cbn [att pos vel].
  split; [symmetry; apply otimes_1_r|]. rewrite !rota_add, !rota_scale. set (rv := rota (real p) v). set (t := translation p).
  assert (rota (real p) (V 0 0 0) = V 0 0 0) as -> by (rewrite rota_matrix; destruct (transpose (Rq (real p))); vec_eq; f_equal; ring).
  clearbody rv t. destruct rv, t. unfold gravity. split; vec_eq; f_equal; field.
Qed.

Lemma check_unit q : unit q -> Rlt_dec (Rabs (1 - qnorm q)) (1 / 10 ^ 8) = Rlt_dec (Rabs (1 - qnorm q)) (1 / 10 ^ 8) /\ Rabs (1 - qnorm q) < 1 / 10 ^ 8.
Proof. intros U. split; [reflexivity|]. apply unit_qnorm in U. rewrite U, Rminus_diag_eq, Rabs_R0 by reflexivity. apply Rdiv_lt_0_compat; lra. Qed.
(** What computeEndState returns *)
Lemma end_state m p v : good (z (front m)) -> good (z (back m)) -> unit (real p) -> unit (gamma (state (back m))) -> (instant (t0 m) < instant (tf m))%Z ->
  let T := gap (t0 m) (tf m) in let x := state (back m) in
  computeEndState m p v = Done (true, dq_of (otimes (real p) (gamma x)) (vadd (vadd (translation p) (rota (real p) (vadd (vscale T v) (alpha x)))) (vscale (1 / 2 * T * T) GRAVITY)),
    rotp (gamma x) (vadd (vadd v (vscale T (rotp (real p) GRAVITY))) (beta x))).
Proof.
  intros G0 GF Up Ux L. cbv zeta. unfold computeEndState. cbv zeta.
  destruct (Rlt_dec (Rabs (1 - qnorm (gamma (state (back m))))) (1 / 10 ^ 8)) as [_|C]; [|destruct C; apply (check_unit _ Ux)].
  destruct (Rlt_dec (Rabs (1 - qnorm (real p))) (1 / 10 ^ 8)) as [_|C]; [|destruct C; apply (check_unit _ Up)].
  assert (GE : ge (tf m) (t0 m) = true /\ eq (tf m) (t0 m) = false).
  { destruct G0 as [N0 _], GF as [NF _]. unfold instant, normal, t0, tf in *. unfold ge, eq. destruct (stamp (z (back m))) as [sa na], (stamp (z (front m))) as [sb nb]. cbn [sec nsec] in *.
    split.
    - destruct (Z.geb_spec sa sb); [reflexivity|lia].
    - destruct (Z.eqb_spec sa sb), (Z.eqb_spec na nb); cbn [andb]; try reflexivity. lia. }
  destruct GE as [-> ->]. unfold delta_t. destruct (good_sub (tf m) (t0 m) GF G0) as (d & E & N & I & D & S). rewrite E. cbn [of_time and_then]. rewrite S. reflexivity.
Qed.
Lemma end_follows m p v n : good (z (front m)) -> good (z (back m)) -> unit (real p) -> unit (gamma (state (back m))) -> (instant (t0 m) < instant (tf m))%Z -> follows p v m n ->
  computeEndState m p v = Done (true, dq_of (att n) (pos n), rotp (att n) (vel n)) /\ unit (att n).
Proof.
  intros G0 GF Up Ux L (A & B & C). rewrite (end_state m p v G0 GF Up Ux L). rewrite A, B, C. split; [|apply unit_otimes; assumption].
  set (T := gap (t0 m) (tf m)). set (x := state (back m)) in *. f_equal. f_equal.
  - f_equal. f_equal. f_equal. change GRAVITY with gravity. f_equal. field.
  - rewrite rotp_otimes by assumption. f_equal. rewrite !rotp_add, rotp_rota, rotp_scale by exact Up. change GRAVITY with gravity.
    set (b := beta x). set (g := rotp (real p) gravity). clearbody b g. clear. destruct v, b, g. vec_eq. f_equal; ring.
Qed.
Lemma reach_time z0 ba bg rr l m : good z0 -> Forall good l -> l <> [] -> reach (start z0 ba bg rr) m l ->
  front m = mkItem z0 st_id lzero lzero /\ good (z (back m)) /\ unit (gamma (state (back m))) /\ (instant (t0 m) < instant (tf m))%Z /\ history m <> [] /\
  accel_bias m = ba /\ gyro_bias m = bg /\ noise m = rr.
Proof.
  intros G0 F NE E. destruct (reach_grown l (start z0 ba bg rr) m ltac:(discriminate) G0 F E) as [a b c d e f g i j k].
  assert (FR : front m = mkItem z0 st_id lzero lzero) by exact f. split; [exact FR|]. split.
  { rewrite i. change (z (back (start z0 ba bg rr))) with z0. rewrite <- (last_cons _ l z0 z0). rewrite Forall_forall in F.
    assert (H : forall x (q : list sample), In (last (x :: q) x) (x :: q)). { intros x q. revert x. induction q as [|y q IH]; intros x; [left; reflexivity|]. rewrite !last_cons. rewrite <- (last_cons _ q y y). right. apply IH. }
    destruct (H z0 l) as [X|X]; [rewrite <- X; exact G0|apply F, X]. }
  split; [apply g; unfold unit; cbn; lra|]. split; [|split; [exact e|split; [exact a|split; [exact b|exact c]]]].
  specialize (j NE). change (tf (start z0 ba bg rr)) with (stamp z0) in j. unfold t0. rewrite FR. exact j.
Qed.
Lemma dead_end z0 ba bg rr l m p v : good z0 -> Forall good l -> l <> [] -> reach (start z0 ba bg rr) m l -> unit (real p) ->
  exists n, dead_reckoning ba bg z0 l (nav_of p v) = Some n /\ unit (att n) /\ computeEndState m p v = Done (true, dq_of (att n) (pos n), rotp (att n) (vel n)).
Proof.
  intros G0 F NE E Up. destruct (follow_all p v l Up (start z0 ba bg rr) m (nav_of p v) ltac:(discriminate) G0 F ltac:(unfold unit; cbn; lra) E (follows_start z0 ba bg rr p v)) as (n & D & FO).
  destruct (reach_time z0 ba bg rr l m G0 F NE E) as (FR & GB & U & L & _). assert (GF : good (z (front m))) by (rewrite FR; exact G0).
  destruct (end_follows m p v n GF GB Up U L FO) as [C UA]. exists n. split; [exact D|]. split; [exact UA|exact C].
Qed.
