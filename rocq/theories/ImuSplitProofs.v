(** Proofs about splitting integrated inertial measurements in two *)
From Coq Require Import ZArith Bool Reals List Arith Lia Lra Psatz.
From Verif Require Import UtcTimeModel UtcTimeSpec UtcTimeProofs Float64 QuantizedModel QuantizedProofs RotModel RotSpec RotProofs RotTrigProofs RotExpProofs LinSpec LinProofs ImuModel ImuSpec ImuProofs ImuResProofs.
Import ListNotations.
Local Open Scope R_scope.

Lemma spaced_dec a l : {spaced a l} + {~ spaced a l}.
Proof.
  revert a. induction l as [|s r IH]; intros a; [left; exact I|]. cbn [spaced]. destruct (Z_le_dec (instant (stamp a) + 100000) (instant (stamp s))) as [L|L]; [|right; tauto].
  destruct (IH s); [left|right]; tauto.
Qed.
Lemma reach_spaced z0 ba bg rr l m : good z0 -> Forall good l -> reach (start z0 ba bg rr) m l -> spaced z0 l.
Proof.
  intros G F E. destruct (spaced_dec z0 l) as [H|H]; [exact H|exfalso]. destruct (spaced_ok l (start z0 ba bg rr) ltac:(discriminate) G F) as [_ X]. unfold reach in E. rewrite X in E by exact H. discriminate.
Qed.
Lemma spaced_app a l1 l2 : spaced a (l1 ++ l2) <-> spaced a l1 /\ spaced (last l1 a) l2.
Proof.
  revert a. induction l1 as [|s r IH]; intros a; [cbn; tauto|]. cbn [app spaced]. rewrite IH, last_cons. tauto.
Qed.
Lemma spaced_last a l : spaced a l -> Forall (fun s => (instant (stamp s) <= instant (stamp (last l a)))%Z) (a :: l).
Proof.
  revert a. induction l as [|s r IH]; intros a H; [constructor; [cbn; lia|constructor]|]. destruct H as [L H]. rewrite last_cons. specialize (IH s H). constructor; [|exact IH]. apply Forall_inv in IH. lia.
Qed.
(** A history only grows *)
Lemma integrate_history m s m' : integrate m s = Done m' -> exists h, history m' = history m ++ [h] /\ z h = s.
Proof.
  unfold integrate. destruct (sub (stamp s) (tf m)) as [d|]; [|discriminate]. cbn [of_time and_then]. destruct (fle quantum (QuantizedModel.toSec d)); [|discriminate].
  destruct (propagate_some (accel_bias m) (gyro_bias m) (noise m) (back m) s (seconds d)) as (h & E & Z & _). rewrite E. cbn [of_num and_then]. intros H. injection H as <-. exists h. split; [reflexivity|exact Z].
Qed.
Lemma reach_history l : forall m m', reach m m' l -> exists r, history m' = history m ++ r /\ map z r = l.
Proof.
  induction l as [|s r IH]; intros m m' E.
  - injection E as <-. exists []. split; [rewrite app_nil_r; reflexivity|reflexivity].
  - unfold reach in E. cbn [integrate_all] in E. destruct (integrate m s) as [m1| | |] eqn:EI; try discriminate. cbn [and_then] in E.
    destruct (integrate_history m s m1 EI) as (h & H1 & Z). destruct (IH m1 m' E) as (q & H2 & M). exists (h :: q). rewrite H2, H1, <- app_assoc. split; [reflexivity|]. cbn [map]. congruence.
Qed.
Lemma reach_app m m' l1 l2 : reach m m' (l1 ++ l2) -> exists m1, reach m m1 l1 /\ reach m1 m' l2.
Proof.
  unfold reach. rewrite integrate_all_app. destruct (integrate_all m l1) as [m1| | |]; try discriminate. cbn [and_then]. intros E. exists m1. split; [reflexivity|exact E].
Qed.
(** Quantised comparisons of good times *)
Lemma good_diff a b : good_time a -> good_time b -> diff_ok a b.
Proof. intros [Na Ra] [Nb Rb]. unfold diff_ok. lia. Qed.
Lemma cmp_le t x : good_time t -> good_time x -> tq_le x t = Some (instant x - instant t <=? 50000)%Z.
Proof.
  intros T X. destruct (good_sub x t X T) as (d & E & N & I & D & _). unfold tq_le. rewrite E. cbv beta iota delta [UtcTimeModel.bind]. rewrite (le_half d I N), D. reflexivity.
Qed.
Lemma cmp_gt t x : good_time t -> good_time x -> q_gt t x = Some (50000 <? instant t - instant x)%Z.
Proof. intros T X. destruct (good_sub t x T X) as (d & E & N & I & D & _). unfold q_gt. rewrite E. cbv beta iota delta [UtcTimeModel.bind]. rewrite (gt_half d I N), D. reflexivity. Qed.
Lemma cmp_lt t x : good_time t -> good_time x -> q_lt t x = Some (50000 <? instant x - instant t)%Z.
Proof. intros T X. destruct (good_sub x t X T) as (d & E & N & I & D & _). unfold q_lt. rewrite E. cbv beta iota delta [UtcTimeModel.bind]. rewrite (gt_half d I N), D. reflexivity. Qed.
Lemma cmp_ne t x : good_time t -> good_time x -> q_ne t x = Some (50000 <? Z.abs (instant t - instant x))%Z.
Proof. intros T X. destruct (good_sub t x T X) as (d & E & N & I & D & _). unfold q_ne. rewrite E. cbv beta iota delta [UtcTimeModel.bind]. rewrite (abs_gt_half d I N), D. reflexivity. Qed.
Lemma advance_ok t h1 nx h2 : good_time t -> Forall (fun h => good (z h) /\ (instant (stamp (z h)) <= instant t + 50000)%Z) h1 -> good (z nx) -> (instant t + 50000 < instant (stamp (z nx)))%Z ->
  advance t (h1 ++ nx :: h2) = Done (h1, nx :: h2).
Proof.
  intros T F G L. induction h1 as [|h r IH]; cbn [app advance].
  - rewrite (cmp_le t _ T G). cbn [of_time and_then]. destruct (Z.leb_spec (instant (stamp (z nx)) - instant t) 50000); [lia|reflexivity].
  - apply Forall_cons_iff in F. destruct F as [[Gh Lh] F]. rewrite (cmp_le t _ T Gh). cbn [of_time and_then]. destruct (Z.leb_spec (instant (stamp (z h)) - instant t) 50000); [|lia].
    rewrite (IH F). reflexivity.
Qed.
Lemma split_sample_ok t a b : good_time t -> good a -> good b -> (instant (stamp a) < instant (stamp b))%Z -> split_sample t a b = Done (interpolated t a b).
Proof.
  intros T A B L. unfold split_sample. destruct (good_sub (stamp b) (stamp a) B A) as (d & -> & _ & _ & _ & D). destruct (good_sub t (stamp a) T A) as (e & -> & _ & _ & _ & E). cbn [of_time and_then]. rewrite D, E.
  unfold div. pose proof (gap_pos _ _ L). destruct (Req_EM_T (gap (stamp a) (stamp b)) 0) as [X|X]; [lra|]. reflexivity.
Qed.
Lemma good_front z0 ba bg rr l m : reach (start z0 ba bg rr) m l -> t0 m = stamp z0.
Proof. intros E. destruct (reach_history _ _ _ E) as (r & H & _). unfold t0, front. rewrite H. reflexivity. Qed.
Lemma last_map_z (r : list item) a d : last (map z (a :: r)) d = z (last (a :: r) nothing).
Proof. revert a. induction r as [|b r IH]; intros a; [reflexivity|]. exact (IH b). Qed.
Lemma tf_last z0 ba bg rr l m : reach (start z0 ba bg rr) m l -> z (back m) = last l z0.
Proof.
  intros E. destruct (reach_history _ _ _ E) as (r & H & M). unfold back. rewrite H. cbn [start history app]. rewrite <- M. rewrite <- (last_map_z r _ z0). cbn [map z]. rewrite last_cons. reflexivity.
Qed.
Lemma rev_last (A : Type) (l : list A) d : l <> [] -> exists r, rev l = last l d :: r.
Proof.
  intros H. destruct (exists_last H) as (l' & a & ->). rewrite last_last, rev_app_distr. exists (rev l'). reflexivity.
Qed.
Lemma start_history z0 ba bg rr m l : good z0 -> Forall good l -> reach (start z0 ba bg rr) m l -> m = mkImu ba bg rr (history m) /\ history m <> [] /\ map z (history m) = z0 :: l.
Proof.
  intros G F E. destruct (reach_grown l (start z0 ba bg rr) m ltac:(discriminate) G F E) as [a b c d e f g i j k]. split; [|split; [exact e|]].
  - destruct m as [x y u v]. cbn [accel_bias gyro_bias noise history] in *. subst. reflexivity.
  - rewrite d. reflexivity.
Qed.
Lemma split_works_dec t prev next : {split_works t prev next} + {~ split_works t prev next}.
Proof.
  unfold split_works. destruct (Z_le_dec (instant t + 100000) (instant (stamp next))); [|right; tauto].
  destruct (Z_le_dec (Z.abs (instant t - instant (stamp prev))) 50000); [left; tauto|]. destruct (Z_le_dec (instant (stamp prev) + 100000) (instant t)); [left|right]; tauto.
Qed.
Lemma split_core z0 ba bg rr l1 next l2 m t : good z0 -> Forall good (l1 ++ next :: l2) -> good_time t -> reach (start z0 ba bg rr) m (l1 ++ next :: l2) ->
  (instant (stamp z0) + 50000 < instant t)%Z -> (instant (stamp (last l1 z0)) <= instant t + 50000 < instant (stamp next))%Z ->
  let prev := last l1 z0 in let s := interpolated t prev next in
  (split_works t prev next -> exists first second, split m t = Done (first, second) /\
     reach (start z0 ba bg rr) first (if (Z.abs (instant t - instant (stamp prev)) <=? 50000)%Z then l1 else l1 ++ [s]) /\ reach (start s ba bg rr) second (next :: l2)) /\
  (~ split_works t prev next -> split m t = Exits).
Proof.
  intros G F T E LO [LP LN]. cbv zeta. set (prev := last l1 z0) in *. pose proof (reach_spaced _ _ _ _ _ _ G F E) as SP. apply spaced_app in SP. destruct SP as [SP1 SP2]. fold prev in SP2. cbn [spaced] in SP2. destruct SP2 as [PN SP2].
  pose proof F as F'. apply Forall_app in F'. destruct F' as [F1 F2]. pose proof (Forall_inv F2) as GN. pose proof (Forall_inv_tail F2) as FT.
  assert (GP : good prev). { unfold prev. clear - G F1. revert z0 G. induction F1 as [|a r Ga Fr IH]; intros z0 G; [exact G|]. rewrite last_cons. apply IH, Ga. }
  destruct (reach_app _ _ _ _ E) as (m1 & E1 & E2). destruct (start_history _ _ _ _ _ _ G F1 E1) as (M1 & NE1 & Z1). destruct (start_history _ _ _ _ _ _ G F E) as (M & NE & ZZ).
  destruct (reach_history _ _ _ E2) as (rest & H & MR). destruct rest as [|nx rest]; [discriminate MR|]. cbn [map] in MR. injection MR as ZN MR.
  assert (TF : (instant t + 50000 < instant (tf m))%Z).
  { unfold tf. rewrite (tf_last _ _ _ _ _ _ E). pose proof (spaced_last next l2 SP2) as SL. apply Forall_inv in SL. assert (last (l1 ++ next :: l2) z0 = last l2 next) as ->; [|lia].
    clear. revert z0. induction l1 as [|a r IH]; intros z0; [apply last_cons|]. cbn [app]. rewrite last_cons. apply IH. }
  assert (GB : good_time (tf m)). { unfold tf. rewrite (tf_last _ _ _ _ _ _ E). clear - G F. revert z0 G. induction F as [|a r Ga Fr IH]; intros z0 G; [exact G|]. rewrite last_cons. apply IH, Ga. }
  assert (AD : advance t (history m) = Done (history m1, nx :: rest)).
  { rewrite H. apply advance_ok; [exact T| |rewrite ZN; exact GN|rewrite ZN; exact LN].
    pose proof (spaced_last z0 l1 SP1) as SL. fold prev in SL. rewrite <- Z1 in SL. assert (FG : Forall good (map z (history m1))) by (rewrite Z1; constructor; assumption).
    rewrite Forall_map in SL, FG. rewrite Forall_forall in *. intros h I. split; [apply FG, I|]. specialize (SL h I). cbv beta in SL. lia. }
  assert (ZP : z (last (history m1) nothing) = prev) by exact (tf_last _ _ _ _ _ _ E1).
  assert (M1' : mkImu (accel_bias m) (gyro_bias m) (noise m) (history m1) = m1) by (rewrite M; cbn [accel_bias gyro_bias noise]; symmetry; exact M1).
  assert (T1 : tf m1 = stamp prev) by (unfold tf; rewrite (tf_last _ _ _ _ _ _ E1); reflexivity).
  set (s := interpolated t prev next).
  assert (GS : good s) by exact T.
  assert (SS : (split_works t prev next -> exists second, integrate_all (start s ba bg rr) (next :: l2) = Done second) /\ ((instant (stamp next) < instant t + 100000)%Z -> integrate_all (start s ba bg rr) (next :: l2) = Exits)).
  { destruct (spaced_ok (next :: l2) (start s ba bg rr) ltac:(discriminate) GS F2) as [Y N]. split.
    - intros [W _]. apply Y. split; [exact W|exact SP2].
    - intros W. apply N. intros [B _]. change (stamp (z (back (start s ba bg rr)))) with t in B. lia. }
  assert (FS : integrate m1 s = if (instant (stamp prev) + 100000 <=? instant t)%Z then integrate m1 s else Exits).
  { rewrite integrate_step at 1; [|unfold good; change (stamp (z (back m1))) with (tf m1); rewrite T1; exact GP|exact GS]. rewrite T1. change (stamp s) with t.
    destruct (instant (stamp prev) + 100000 <=? instant t)%Z eqn:LE; [|reflexivity]. rewrite integrate_step; [|unfold good; change (stamp (z (back m1))) with (tf m1); rewrite T1; exact GP|exact GS]. rewrite T1. change (stamp s) with t. rewrite LE. reflexivity. }
  assert (SPL : split m t = run second <- integrate_all (start s ba bg rr) (next :: l2); if (50000 <? Z.abs (instant t - instant (stamp prev)))%Z then run first' <- integrate m1 s; Done (first', second) else Done (m1, second)).
  { unfold split. rewrite (good_front _ _ _ _ _ _ E), (cmp_gt t (stamp z0) T G), (cmp_lt t (tf m) T GB). cbn [of_time and_then].
    destruct (Z.ltb_spec 50000 (instant t - instant (stamp z0))); [|lia]. cbn [of_time and_then]. destruct (Z.ltb_spec 50000 (instant (tf m) - instant t)); [|lia].
    rewrite AD. cbn [and_then fst snd]. destruct (rev_last _ (history m1) nothing NE1) as (rr' & ->). rewrite ZP, ZN, (split_sample_ok t prev next T GP GN) by lia. cbn [and_then]. fold s.
    rewrite M1', T1. cbn [map]. rewrite ZN, MR. rewrite M. cbn [accel_bias gyro_bias noise]. rewrite (cmp_ne t (stamp prev) T GP). cbn [of_time and_then]. reflexivity. }
  split.
  - intros W. destruct SS as [SS _]. destruct (SS W) as (second & ES). rewrite SPL, ES. cbn [and_then]. destruct W as [W1 W2]. 
    destruct (Z.leb_spec (Z.abs (instant t - instant (stamp prev))) 50000) as [LE|LE].
    + destruct (Z.ltb_spec 50000 (Z.abs (instant t - instant (stamp prev)))); [lia|]. exists m1, second. split; [reflexivity|]. split; [exact E1|exact ES].
    + destruct (Z.ltb_spec 50000 (Z.abs (instant t - instant (stamp prev)))); [|lia]. destruct W2 as [W2|W2]; [lia|].
      destruct (integrate_done m1 s) as (h & P & ZH & UH & EI); [unfold good; change (stamp (z (back m1))) with (tf m1); rewrite T1; exact GP|exact GS|rewrite T1; exact W2|].
      rewrite EI. cbn [and_then]. eexists. exists second. split; [reflexivity|]. split; [|exact ES]. unfold reach. rewrite integrate_all_app, E1. cbn [and_then integrate_all]. rewrite EI. reflexivity.
  - intros W. rewrite SPL. destruct (Z_lt_le_dec (instant (stamp next)) (instant t + 100000)) as [L|L].
    + destruct SS as [_ SS]. rewrite (SS L). reflexivity.
    + assert (NP : ~ ((Z.abs (instant t - instant (stamp prev)) <= 50000)%Z \/ (instant (stamp prev) + 100000 <= instant t)%Z)) by (intros X; apply W; split; assumption).
      destruct (spaced_ok (next :: l2) (start s ba bg rr) ltac:(discriminate) GS F2) as [Y _]. destruct Y as (second & ES); [split; [exact L|exact SP2]|]. rewrite ES. cbn [and_then].
      destruct (Z.ltb_spec 50000 (Z.abs (instant t - instant (stamp prev)))); [|exfalso; apply NP; left; lia].
      rewrite FS. destruct (Z.leb_spec (instant (stamp prev) + 100000) (instant t)); [exfalso; apply NP; right; lia|reflexivity].
Qed.
(** Every time has its place *)
Lemma place t l : forall z0, (instant (stamp z0) <= instant t + 50000)%Z -> (instant t + 50000 < instant (stamp (last l z0)))%Z ->
  exists l1 next l2, l = l1 ++ next :: l2 /\ (instant (stamp (last l1 z0)) <= instant t + 50000 < instant (stamp next))%Z.
Proof.
  induction l as [|s r IH]; intros z0 L0 LF; [cbn in LF; lia|]. rewrite last_cons in LF. destruct (Z_le_gt_dec (instant (stamp s)) (instant t + 50000)) as [L|L].
  - destruct (IH s L LF) as (l1 & next & l2 & -> & H). exists (s :: l1), next, l2. rewrite last_cons. split; [reflexivity|exact H].
  - exists [], s, r. cbn [app last]. split; [reflexivity|lia].
Qed.
Lemma split_outside z0 ba bg rr l m t : good z0 -> Forall good l -> good_time t -> reach (start z0 ba bg rr) m l ->
  (instant t <= instant (stamp z0) + 50000 \/ instant (stamp (last l z0)) - 50000 <= instant t)%Z -> split m t = Exits.
Proof.
  intros G F T E H. assert (GB : good_time (stamp (last l z0))). { clear - G F. revert z0 G. induction F as [|a r Ga Fr IH]; intros z0 G; [exact G|]. rewrite last_cons. apply IH, Ga. }
  unfold split. rewrite (good_front _ _ _ _ _ _ E), (cmp_gt t (stamp z0) T G). cbn [of_time and_then]. destruct (Z.ltb_spec 50000 (instant t - instant (stamp z0))); [|reflexivity].
  unfold tf. rewrite (tf_last _ _ _ _ _ _ E), (cmp_lt t _ T GB). cbn [of_time and_then]. destruct (Z.ltb_spec 50000 (instant (stamp (last l z0)) - instant t)); [lia|reflexivity].
Qed.

(** ** Splitting at a sample and continuing from there *)
Lemma interpolated_at a b : (instant (stamp a) < instant (stamp b))%Z -> interpolated (stamp a) a b = a.
Proof.
  intros L. unfold interpolated. cbv zeta. rewrite gap_self. pose proof (gap_pos _ _ L). replace (0 / gap (stamp a) (stamp b)) with 0 by (field; lra).
  assert (K : forall u v : vec, vadd (vscale 0 u) (vscale (1 - 0) v) = v). { intros [u1 u2 u3] [v1 v2 v3]. vec_eq. f_equal; ring. } rewrite !K. destruct a. reflexivity.
Qed.
Lemma reckoning_app ba bg l1 : forall z0 l2 n, dead_reckoning ba bg z0 (l1 ++ l2) n = do n' <- dead_reckoning ba bg z0 l1 n; dead_reckoning ba bg (last l1 z0) l2 n'.
Proof.
  induction l1 as [|s r IH]; intros z0 l2 n; [reflexivity|]. cbn [app dead_reckoning]. rewrite last_cons. destruct (strapdown ba bg z0 s n) as [n'|]; [|reflexivity]. cbn. apply IH.
Qed.
Lemma nav_back n : RotSpec.unit (att n) -> nav_of (dq_of (att n) (pos n)) (rotp (att n) (vel n)) = n.
Proof.
  intros U. destruct n as [p v a]. cbn [att pos vel] in *. unfold nav_of. rewrite (translation_of a p U). change (real (dq_of a p)) with a. rewrite (rota_rotp a v U). reflexivity.
Qed.
Lemma split_at_sample z0 ba bg rr l1 prev next l2 m p v : good z0 -> Forall good (l1 ++ prev :: next :: l2) -> RotSpec.unit (real p) -> reach (start z0 ba bg rr) m (l1 ++ prev :: next :: l2) ->
  exists first second p1 v1, split m (stamp prev) = Done (first, second) /\ computeEndState first p v = Done (true, p1, v1) /\ computeEndState second p1 v1 = computeEndState m p v.
Proof.
  intros G F U E. assert (AA : l1 ++ prev :: next :: l2 = (l1 ++ [prev]) ++ next :: l2) by (rewrite <- app_assoc; reflexivity). rewrite AA in F, E.
  pose proof (reach_spaced _ _ _ _ _ _ G F E) as SP. apply spaced_app in SP. destruct SP as [SP1 SP2]. rewrite last_last in SP2. cbn [spaced] in SP2. destruct SP2 as [PN SP2].
  pose proof F as F'. apply Forall_app in F'. destruct F' as [F1 F2]. assert (GP : good prev) by (apply Forall_app in F1; destruct F1 as [_ F1]; exact (Forall_inv F1)).
  assert (Z0 : (instant (stamp z0) + 100000 <= instant (stamp prev))%Z). { apply spaced_app in SP1. destruct SP1 as [A B]. cbn [spaced] in B. destruct B as [B _]. pose proof (Forall_inv (spaced_last z0 l1 A)) as C. cbv beta in C. lia. }
  destruct (split_core z0 ba bg rr (l1 ++ [prev]) next l2 m (stamp prev) G F GP E) as [Y _]; [lia|rewrite last_last; lia|]. rewrite !last_last in Y. rewrite interpolated_at in Y by lia.
  destruct Y as (first & second & S & R1 & R2); [split; [lia|left; rewrite Z.sub_diag; cbn; lia]|]. rewrite Z.sub_diag in R1. cbn [Z.abs Z.leb Z.compare] in R1.
  destruct (dead_end z0 ba bg rr (l1 ++ [prev]) first p v G F1 ltac:(destruct l1; discriminate) R1 U) as (n1 & D1 & U1 & C1).
  destruct (dead_end prev ba bg rr (next :: l2) second (dq_of (att n1) (pos n1)) (rotp (att n1) (vel n1)) GP F2 ltac:(discriminate) R2 ltac:(exact U1)) as (n2 & D2 & U2 & C2).
  destruct (dead_end z0 ba bg rr _ m p v G F ltac:(destruct l1; discriminate) E U) as (n3 & D3 & U3 & C3).
  rewrite (nav_back n1 U1) in D2. rewrite reckoning_app, D1, last_last in D3. cbn in D3. assert (n3 = n2) by (cbn in D2; congruence). subst n3.
  exists first, second, (dq_of (att n1) (pos n1)), (rotp (att n1) (vel n1)). split; [exact S|]. split; [exact C1|]. rewrite C2, C3. reflexivity.
Qed.

(** ** A constant force without turning *)
Lemma gap_total l : forall z0, total z0 l = gap (stamp z0) (stamp (last l z0)).
Proof. induction l as [|s r IH]; intros z0; [cbn; rewrite gap_self; reflexivity|]. cbn [total]. rewrite IH, last_cons, <- gap_trans. reflexivity. Qed.
Definition constant_state (f : vec) (T S2 : R) (x : imu_state) : Prop :=
  gamma x = Identity /\ beta x = vscale T f /\ alpha x = vscale ((T * T - S2) / 2) f.
Lemma average_same v : average v v = v.
Proof. destruct v as [a b c]. unfold average. vec_eq. f_equal; field. Qed.
Lemma cv1 (f b : vec) : vsub (vadd f b) b = f.
Proof. destruct f, b. vec_eq. f_equal; ring. Qed.
Lemma cv2 (f : vec) T dt : vadd (vscale T f) (vscale dt f) = vscale (T + dt) f.
Proof. destruct f. vec_eq. f_equal; ring. Qed.
Lemma cv3 (f : vec) T S2 dt : vadd (vscale ((T * T - S2) / 2) f) (vscale dt (vscale T f)) = vscale (((T + dt) * (T + dt) - (S2 + dt * dt)) / 2) f.
Proof. destruct f. vec_eq. f_equal; field. Qed.
Lemma constant_all ba bg rr f l : forall m m' T S2, accel_bias m = ba -> gyro_bias m = bg -> noise m = rr -> good (z (back m)) -> Forall good l -> Forall (still ba bg f) (z (back m) :: l) -> reach m m' l ->
  constant_state f T S2 (state (back m)) -> constant_state f (T + total (z (back m)) l) (S2 + squares (z (back m)) l) (state (back m')).
Proof.
  induction l as [|s r IH]; intros m m' T S2 BA BG BR G F ST E C.
  - injection E as <-. cbn [total squares]. rewrite !Rplus_0_r. exact C.
  - apply Forall_cons_iff in F. destruct F as [Gs Fr]. apply Forall_cons_iff in ST. destruct ST as [[A0 W0] ST]. pose proof (Forall_inv ST) as [A1 W1]. unfold reach in E. cbn [integrate_all] in E.
    destruct (Z_le_gt_dec (instant (tf m) + 100000) (instant (stamp s))) as [L|L].
    + destruct (integrate_done m s G Gs L) as (h & P & Z & Uh & E1). rewrite E1 in E. cbn [and_then] in E.
      pose proof P as P'. unfold propagate, st_add in P'. cbv zeta in P'. cbn [err_scale state_dot ealpha ebeta egamma] in P'. rewrite BA, BG, A0, W0, A1, W1, !average_same in P'. rewrite cv1 in P'.
      assert (W : vsub bg bg = V 0 0 0) by (destruct bg; vec_eq; f_equal; ring). rewrite W in P'. set (dt := gap (tf m) (stamp s)) in *.
      assert (D0 : vscale dt (V 0 0 0) = V 0 0 0) by (unfold vscale; cbn [vx vy vz]; f_equal; ring). rewrite D0 in P'. assert (Q0 : qexp (V 0 0 0) = Some Identity). { exact qexp_vz0. } rewrite Q0 in P'.
      cbn [bind] in P'. destruct C as (C1 & C2 & C3). rewrite C1, C2, C3 in P'.
      assert (SH : constant_state f (T + dt) (S2 + dt * dt) (state h)).
      { apply (f_equal (fun o => match o with Some y => state y | None => st_id end)) in P'. cbn [state] in P'. rewrite <- P'. unfold constant_state. cbn [alpha beta gamma]. split; [|split].
        - unfold otimes, Identity. cbn [qw qx qy qz]. f_equal; ring.
        - rewrite <- cv2. f_equal. f_equal. unfold rota, Identity. destruct f. vec_eq. f_equal; ring.
        - apply cv3. }
      cbn [total squares]. change (stamp (z (back m))) with (tf m). fold dt. rewrite <- !Rplus_assoc.
      set (m1 := mkImu (accel_bias m) (gyro_bias m) (noise m) (history m ++ [h])) in *. assert (B1 : back m1 = h) by apply back_snoc.
      rewrite <- Z. rewrite <- B1. rewrite <- Z, <- B1 in ST. apply (IH m1 m'); try assumption.
      * rewrite B1, Z. exact Gs.
      * rewrite B1. exact SH.
    + rewrite (integrate_step m s G Gs) in E. destruct (Z.leb_spec (instant (tf m) + 100000) (instant (stamp s))); [lia|discriminate E].
Qed.
