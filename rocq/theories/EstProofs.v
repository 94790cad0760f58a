(** Proofs about the estimator: histories with separated times. *)
From Coq Require Import ZArith Lia List Bool Permutation.
From Verif Require Import UtcTimeModel UtcTimeSpec UtcTimeProofs Float64 QuantizedModel UtcDoubleModel SatModel SatSpec SatProofs EstModel EstSpec EstTimeProofs.
Import ListNotations.
Local Open Scope Z_scope.

Lemma rev_back {A} (l : list A) s r : rev l = s :: r -> l = rev r ++ [s].
Proof. intros E. rewrite <- (rev_involutive l), E. reflexivity. Qed.

Section Est.
Context {X U P H D : Type}.
Variable propagate : X -> b64 -> U -> X.
Variable with_pos : X -> U -> P -> X.
Variable with_hold : X -> H -> X.
Notation meas := (meas U P H).
Notation snapshot := (snapshot X U).
Notation est := (est X U P H D).
Notation call := (call U P H D).
Notation predict := (predict propagate).
Notation handleImu := (handleImu propagate).
Notation reach := (reach propagate).
Notation handleMeas := (handleMeas (D := D) propagate with_pos with_hold).
Notation rollFilter := (rollFilter (D := D) propagate with_pos with_hold).
Notation addMeasurement := (addMeasurement (D := D) propagate with_pos with_hold).
Notation run := (run (D := D) propagate with_pos with_hold).

Lemma back_app (l : list snapshot) s : back (l ++ [s]) = Some s.
Proof. unfold back. rewrite rev_app_distr. reflexivity. Qed.
Lemma back_inv (l : list snapshot) s : back l = Some s -> exists a, l = a ++ [s].
Proof. unfold back. destruct (rev l) eqn:E; [discriminate|]. intros Q. injection Q as ->. eexists. apply rev_back, E. Qed.
Lemma back_none (l : list snapshot) : back l = None -> l = [].
Proof. unfold back. destruct (rev l) eqn:E; [|discriminate]. intros _. rewrite <- (rev_involutive l), E. reflexivity. Qed.
Lemma change_back_app f (l : list snapshot) s : change_back f (l ++ [s]) = Some (l ++ [mkSnap (s_t s) (f s) (s_u s)]).
Proof. unfold change_back. rewrite rev_app_distr. cbn [rev app]. rewrite rev_involutive. reflexivity. Qed.
Lemma push_app (s : snapshot) l : exists a, push s l = a ++ [s] /\ (a = l \/ a = List.tl l /\ length l = CAPACITY).
Proof. unfold push. destruct (Nat.eqb_spec (length l) CAPACITY); eexists; split; try reflexivity; [right|left]; auto. Qed.
Lemma push_same (s s' : snapshot) l a : push s l = a ++ [s] -> push s' l = a ++ [s'].
Proof. unfold push. intros E. apply app_inj_tail in E. destruct E as [E _]. rewrite E. reflexivity. Qed.

Section Session.
Variable t0 : utc.
Hypothesis T0 : start_ok t0.
Lemma near0 : near t0 t0.
Proof. destruct T0. split; [assumption|lia]. Qed.

(** ** Predictions *)
Lemma predict_ok s t u : near t0 (s_t s) -> in_session t0 t -> 50000 < instant t - instant (s_t s) ->
  exists s', predict s t u = Some s' /\ near t0 (s_t s') /\ Z.abs (instant (s_t s') - instant t) <= 1 /\ s_u s' = u.
Proof.
  intros N I L. pose proof (near_session _ _ I) as N'. unfold EstModel.predict. rewrite initialised_ok by (first [apply N|apply (near_sec _ _ T0 N)]).
  rewrite (near_tq_gt t0) by assumption. destruct (Z.ltb_spec 50000 (instant t - instant (s_t s))); [|lia]. cbn [bind].
  destruct (reached t0 _ _ T0 N I ltac:(lia)) as (d & r & E1 & E2 & Nr & K). rewrite E1. cbn [bind]. rewrite E2. cbn [bind].
  eexists. split; [reflexivity|]. cbn [s_t s_u]. auto.
Qed.
Lemma predict_inv s t u s' : near t0 (s_t s) -> in_session t0 t -> predict s t u = Some s' -> 50000 < instant t - instant (s_t s).
Proof.
  intros N I E. pose proof (near_session _ _ I) as N'. unfold EstModel.predict in E. destruct (initialised (s_t s)); [|discriminate].
  rewrite (near_tq_gt t0) in E by assumption. cbn [bind] in E. destruct (Z.ltb_spec 50000 (instant t - instant (s_t s))); [assumption|discriminate].
Qed.

(** ** Any history *)
Definition calm (l : list snapshot) : Prop := Forall (fun s => near t0 (s_t s)) l.
Lemma calm_push s l : near t0 (s_t s) -> calm l -> calm (push s l).
Proof. intros N C. destruct (push_app s l) as (a & -> & Q). apply Forall_app. split; [|constructor; auto]. destruct Q as [ -> |[-> _]]; [exact C|]. destruct l; [exact C|inversion C; assumption]. Qed.
Lemma calm_imu t u l l' : calm l -> in_session t0 t -> handleImu t u l = Some l' -> calm l'.
Proof.
  intros C I E. unfold EstModel.handleImu in E. destruct (back l) as [s|] eqn:B; [|discriminate]. cbn [bind] in E.
  destruct (back_inv _ _ B) as (a & ->). assert (N : near t0 (s_t s)) by (apply Forall_app in C; destruct C as [_ C]; inversion C; assumption).
  destruct (gt t (s_t s)); [|congruence]. destruct (predict s t u) as [s'|] eqn:Q; [|discriminate]. cbn [bind] in E. injection E as <-. apply calm_push; [|exact C].
  pose proof (predict_inv _ _ _ _ N I Q) as L. destruct (predict_ok s t u N I L) as (s2 & Q2 & N2 & _). congruence.
Qed.
Lemma calm_reach t l l' : calm l -> in_session t0 t -> reach t l = Some l' -> calm l'.
Proof.
  intros C I E. unfold EstModel.reach in E. destruct (back l) as [s|]; [|discriminate]. cbn [bind] in E. destruct (tq_gt t (s_t s)) as [b|]; [|discriminate]. cbn [bind] in E.
  destruct b; [apply (calm_imu _ _ _ _ C I E)|congruence].
Qed.
Lemma calm_change f l l' : calm l -> change_back f l = Some l' -> calm l'.
Proof.
  intros C E. unfold change_back in E. destruct (rev l) as [|s r] eqn:R; [discriminate|]. injection E as <-. pose proof (rev_back _ _ _ R) as ->.
  apply Forall_app in C. destruct C as [C1 C2]. apply Forall_app. split; [exact C1|]. inversion C2; subst. constructor; [assumption|constructor].
Qed.
Lemma calm_handle c sm m l l' : calm l -> in_session t0 (m_t m) -> handleMeas c sm m l = Some l' -> calm l'.
Proof.
  intros C I E. unfold EstModel.handleMeas in E. destruct (m_z m) as [u|o|z|z].
  - apply (calm_imu _ _ _ _ C I E).
  - destruct (reach (m_t m) l) as [l1|] eqn:R; [|discriminate]. cbn [bind] in E. destruct (bundle (m_t m) o c sm); [|discriminate]. cbn [bind] in E. injection E as <-. apply (calm_reach _ _ _ C I R).
  - destruct (reach (m_t m) l) as [l1|] eqn:R; [|discriminate]. cbn [bind] in E. apply (calm_change _ _ _ (calm_reach _ _ _ C I R) E).
  - destruct (reach (m_t m) l) as [l1|] eqn:R; [|discriminate]. cbn [bind] in E. apply (calm_change _ _ _ (calm_reach _ _ _ C I R) E).
Qed.
Lemma calm_roll c sm ms : forall l l', calm l -> Forall (fun m : meas => in_session t0 (m_t m)) ms -> rollFilter c sm ms l = Some l' -> calm l'.
Proof.
  induction ms as [|m ms IH]; intros l l' C F E; cbn [EstModel.rollFilter] in E; [congruence|]. inversion F; subst.
  destruct (handleMeas c sm m l) as [l1|] eqn:Q; [|discriminate]. cbn [bind] in E. eapply IH; [|eassumption|exact E]. eapply calm_handle; eauto.
Qed.
Lemma calm_rewind t r : forall r', calm r -> rewind t r = Some r' -> calm r'.
Proof. induction r as [|s r IH]; intros r' C E; cbn [rewind] in E; [discriminate|]. destruct (gt (s_t s) t); [|congruence]. inversion C; subst. auto. Qed.
Lemma calm_rev l : calm l -> calm (rev l).
Proof. unfold calm. rewrite !Forall_forall. intros C s I. apply C. apply in_rev. exact I. Qed.
Lemma calm_drop t l : forall l', calm l -> drop_states t l = Some l' -> calm l' /\ l' <> [].
Proof.
  induction l as [|s l IH]; intros l' C E; cbn [drop_states] in E; [discriminate|]. destruct (q_lt (s_t s) t) as [b|]; [|discriminate]. cbn [bind] in E. inversion C; subst.
  destruct b; [auto|]. injection E as <-. split; [assumption|discriminate].
Qed.
Lemma lower_bound_incl t (l : list meas) x : In x (lower_bound t l) -> In x l.
Proof. induction l as [|y l IH]; cbn [lower_bound]; [contradiction|]. destruct (at_or_after t y); [auto|]. intros I. right. auto. Qed.
Lemma insert_in (m : meas) l x : In x (insert m l) <-> x = m \/ In x l.
Proof. induction l as [|y l IH]; cbn [insert In]; [intuition|]. destruct (before m y); cbn [In]; [intuition|]. rewrite IH. intuition. Qed.
Lemma inserted_in (m : meas) l x : In x (inserted m l) -> x = m \/ In x l.
Proof. induction l as [|y l IH]; cbn [inserted In]; [intuition|]. destruct (before m y); cbn [In]; [intuition|]. intuition. Qed.

(** what holds of every state reached without ending the process *)
Definition sane (e : est) : Prop := states e <> [] /\ calm (states e) /\ Forall (fun m => in_session t0 (m_t m)) (measurements e).
Lemma add_inv m e b e' : addMeasurement m e = Some (b, e') -> sane e -> in_session t0 (m_t m) -> (b = false -> e' = e) /\ sane e' /\ caches e' = caches e /\ sats e' = sats e.
Proof.
  intros E (NE & C & F) I. unfold EstModel.addMeasurement in E. destruct (front (states e)) as [f|]; [|discriminate]. cbn [bind] in E.
  destruct (tq_lt (m_t m) (s_t f)) as [st|]; [|discriminate]. cbn [bind] in E.
  destruct (st || unknown (m_z m) (caches e)); [injection E as <- <-; unfold sane; auto|].
  destruct (back (states e)) as [bk|]; [|discriminate]. cbn [bind] in E.
  match type of E with context [bind ?a _] => destruct a as [l|] eqn:EL; [|discriminate] end. cbn [bind] in E.
  assert (CL : calm l).
  { destruct (lt (m_t m) (s_t bk)); [|congruence]. destruct (lower_bound (m_t m) (insert m (measurements e))) as [|c r]; [discriminate|].
    destruct (rewind (m_t c) (rev (states e))) as [rr|] eqn:RW; [|discriminate]. cbn [bind] in EL. injection EL as <-. apply calm_rev. eapply calm_rewind; [|exact RW]. apply calm_rev, C. }
  destruct (rollFilter _ _ _ l) as [l1|] eqn:RO; [|discriminate]. cbn [bind] in E.
  assert (CL1 : calm l1).
  { eapply calm_roll; [exact CL| |exact RO]. apply Forall_forall. intros x Hx. apply inserted_in in Hx. destruct Hx as [ -> |Hx]; [exact I|]. rewrite Forall_forall in F. auto. }
  unfold dropOldMeasurements in E. destruct (rev (insert m (measurements e))) as [|nw ?]; [discriminate|]. destruct (sub_double (m_t nw) MAX_DELAY_AGE_S) as [ts|]; [|discriminate]. cbn [bind] in E.
  destruct (drop_states ts l1) as [l2|] eqn:DS; [|discriminate]. cbn [bind fst snd] in E. injection E as <- <-. split; [discriminate|].
  destruct (calm_drop _ _ _ CL1 DS) as [CL2 NE2]. split; [|auto]. split; [exact NE2|]. split; [exact CL2|]. cbn [measurements]. apply Forall_forall. intros x Hx.
  apply lower_bound_incl in Hx. apply insert_in in Hx. destruct Hx as [ -> |Hx]; [exact I|]. rewrite Forall_forall in F. auto.
Qed.
Lemma sane_init x0 u0 : sane (init t0 x0 u0).
Proof. split; [discriminate|]. split; [constructor; [apply near0|constructor]|constructor]. Qed.
Lemma sane_eph y ee e e' : estEph y ee e = Some e' -> sane e -> sane e'.
Proof. unfold estEph. intros E S. destruct (ephCb y ee (sats e)); [|discriminate]. cbn [bind] in E. injection E as <-. exact S. Qed.
Lemma run_sane l : forall e bs e', run l e = Some (bs, e') -> sane e -> Forall (fun m => in_session t0 (m_t m)) (offered l) -> sane e'.
Proof.
  induction l as [|c l IH]; intros e bs e' E S F; cbn [EstModel.run] in E; [congruence|]. destruct c as [m|y ee]; cbn [offered] in F.
  - inversion F; subst. destruct (addMeasurement m e) as [[b e1]|] eqn:A; [|discriminate]. cbn [bind snd fst] in E. destruct (run l e1) as [[bs1 e2]|] eqn:R; [|discriminate]. cbn [bind fst snd] in E. injection E as _ <-.
    destruct (add_inv _ _ _ _ A S ltac:(assumption)) as (_ & S1 & _). eapply IH; eauto.
  - destruct (estEph y ee e) as [e1|] eqn:A; [|discriminate]. cbn [bind] in E. eapply IH; eauto. eapply sane_eph; eauto.
Qed.

(** ** Histories with separated times *)
(** The state after one more measurement, later than the state by more than 50 us *)
Definition input (s : snapshot) (m : meas) : U := match m_z m with Imu u => u | _ => s_u s end.
Definition applied (m : meas) (s : snapshot) : snapshot :=
  mkSnap (s_t s) (match m_z m with Pos z => with_pos (s_x s) (s_u s) z | Hold z => with_hold (s_x s) z | _ => s_x s end) (s_u s).
Definition nxt (s : snapshot) (m : meas) : snapshot := match predict s (m_t m) (input s m) with Some s' => applied m s' | None => s end.
Definition tracks (s : snapshot) (t : Z) : Prop := near t0 (s_t s) /\ Z.abs (instant (s_t s) - t) <= 1.

Lemma nxt_ok s m : near t0 (s_t s) -> in_session t0 (m_t m) -> 50000 < time m - instant (s_t s) ->
  exists s', predict s (m_t m) (input s m) = Some s' /\ nxt s m = applied m s' /\ tracks (nxt s m) (time m).
Proof.
  intros N I L. destruct (predict_ok s (m_t m) (input s m) N I L) as (s' & E & N' & K & _). exists s'. unfold nxt. rewrite E. split; [reflexivity|]. split; [reflexivity|]. split; assumption.
Qed.
Definition fine (c : list Z) (sm : manager D) (m : meas) : Prop := match m_z m with Bundle o => bundle (m_t m) o c sm = Some tt | _ => True end.
Lemma applied_same m s : (match m_z m with Imu _ => True | Bundle _ => True | _ => False end) -> applied m s = s.
Proof. unfold applied. destruct s, (m_z m); intros Q; try contradiction; reflexivity. Qed.
Lemma handle_next c sm m l s : back l = Some s -> near t0 (s_t s) -> in_session t0 (m_t m) -> 50000 < time m - instant (s_t s) ->
  (fine c sm m -> handleMeas c sm m l = Some (push (nxt s m) l)) /\ (forall l', handleMeas c sm m l = Some l' -> l' = push (nxt s m) l).
Proof.
  intros B N I L. destruct (nxt_ok s m N I L) as (s' & E & EN & _). pose proof (near_session _ _ I) as N'.
  assert (G : gt (m_t m) (s_t s) = true). { rewrite (near_gt t0) by assumption. apply Z.gtb_lt. unfold time in L. lia. }
  assert (R : forall u, predict s (m_t m) u = Some s' -> handleImu (m_t m) u l = Some (push s' l)).
  { intros u Q. unfold EstModel.handleImu. rewrite B. cbn [bind]. rewrite G, Q. reflexivity. }
  assert (RR : predict s (m_t m) (s_u s) = Some s' -> reach (m_t m) l = Some (push s' l)).
  { intros Q. unfold EstModel.reach. rewrite B. cbn [bind]. rewrite (near_tq_gt t0) by assumption. cbn [bind]. destruct (Z.ltb_spec 50000 (instant (m_t m) - instant (s_t s))); [|unfold time in L; lia]. apply R, Q. }
  destruct (push_app s' l) as (a & PA & _). unfold EstModel.handleMeas, fine. unfold input in E. rewrite EN. destruct (m_z m) as [u|o|z|z] eqn:Z.
  - rewrite (applied_same m s') by (rewrite Z; exact Logic.I). rewrite (R _ E). split; [reflexivity|congruence].
  - rewrite (applied_same m s') by (rewrite Z; exact Logic.I). rewrite (RR E). cbn [bind]. split.
    + intros ->. reflexivity.
    + intros l'. destruct (bundle (m_t m) o c sm); [|discriminate]. cbn [bind]. congruence.
  - rewrite (RR E). cbn [bind]. rewrite PA, change_back_app. rewrite (push_same _ (applied m s') _ _ PA). unfold applied. rewrite Z. split; [reflexivity|congruence].
  - rewrite (RR E). cbn [bind]. rewrite PA, change_back_app. rewrite (push_same _ (applied m s') _ _ PA). unfold applied. rewrite Z. split; [reflexivity|congruence].
Qed.

Definition fold (s : snapshot) (M : list meas) : snapshot := fold_left nxt M s.
Fixpoint chain (s : snapshot) (M : list meas) : list snapshot := s :: match M with [] => [] | m :: r => chain (nxt s m) r end.
Lemma chain_eq s M : chain s M = s :: match M with [] => [] | m :: r => chain (nxt s m) r end.
Proof. destruct M; reflexivity. Qed.
Lemma chain_snoc M : forall s m, chain s (M ++ [m]) = chain s M ++ [fold s (M ++ [m])].
Proof. induction M as [|x M IH]; intros s m; cbn [app chain]; [reflexivity|]. rewrite IH. reflexivity. Qed.
Lemma chain_back M s : exists a, chain s M = a ++ [fold s M].
Proof. destruct M as [|m M _] using rev_ind; [exists []; reflexivity|]. exists (chain s M). apply chain_snoc. Qed.
Lemma back_chain M s : back (chain s M) = Some (fold s M).
Proof. destruct (chain_back M s) as (a & ->). apply back_app. Qed.
Lemma chain_length M : forall s, length (chain s M) = S (length M).
Proof. induction M as [|m M IH]; intros s; cbn [chain length]; [reflexivity|]. rewrite IH. reflexivity. Qed.
Lemma fold_app s A B : fold s (A ++ B) = fold (fold s A) B.
Proof. apply fold_left_app. Qed.
Lemma fold_snoc s A m : fold s (A ++ [m]) = nxt (fold s A) m.
Proof. rewrite fold_app. reflexivity. Qed.
Lemma push_chain s M m : exists M1 M2, M ++ [m] = M1 ++ M2 /\ push (fold s (M ++ [m])) (chain s M) = chain (fold s M1) M2 /\ (M1 = [] \/ exists a, M1 = [a] /\ length M = 98%nat).
Proof.
  unfold push. rewrite chain_length. destruct (Nat.eqb_spec (S (length M)) CAPACITY) as [Q|Q].
  - destruct M as [|a M]; [discriminate|]. exists [a], (M ++ [m]). split; [reflexivity|]. split; [|right; exists a; split; [reflexivity|unfold CAPACITY in Q; lia]].
    rewrite (chain_eq s). cbn [tl]. rewrite chain_snoc. reflexivity.
  - exists [], (M ++ [m]). split; [reflexivity|]. split; [|left; reflexivity]. rewrite chain_snoc. reflexivity.
Qed.

(** times increase by at least 50.002 us, starting from [lo] *)
Fixpoint apart (lo : Z) (M : list meas) : Prop := match M with [] => True | m :: r => lo + 50002 <= time m /\ in_session t0 (m_t m) /\ apart (time m) r end.
Definition final (lo : Z) (M : list meas) : Z := fold_left (fun _ m => time m) M lo.
Lemma final_app lo A B : final lo (A ++ B) = final (final lo A) B.
Proof. apply fold_left_app. Qed.
Lemma apart_app A : forall lo B, apart lo (A ++ B) <-> apart lo A /\ apart (final lo A) B.
Proof. induction A as [|m A IH]; intros lo B; cbn [app apart]; [unfold final; cbn [fold_left]; tauto|]. rewrite IH. unfold final. cbn [fold_left]. tauto. Qed.
Lemma apart_all M : forall lo, apart lo M -> lo <= final lo M /\ forall x, In x M -> lo + 50002 <= time x <= final lo M.
Proof.
  induction M as [|m M IH]; intros lo A; cbn [apart] in A; [split; [unfold final; cbn; lia|contradiction]|]. destruct A as (L & _ & A). destruct (IH _ A) as [L2 IN]. unfold final in *. cbn [fold_left].
  split; [lia|]. intros x [ <- |I]; [lia|]. specialize (IN _ I). lia.
Qed.
Lemma fold_tracks M : forall s lo, tracks s lo -> apart lo M -> tracks (fold s M) (final lo M).
Proof.
  induction M as [|m M IH]; intros s lo K A; [exact K|]. cbn [apart] in A. destruct A as (L & I & A). unfold fold, final. cbn [fold_left]. apply IH; [|exact A].
  destruct K as [N K]. destruct (nxt_ok s m N I ltac:(lia)) as (_ & _ & _ & T). exact T.
Qed.

(** rolling over separated measurements *)
Lemma roll_ok c sm M2 : forall s lo M1, tracks s lo -> apart lo (M1 ++ M2) ->
  exists A B, M1 ++ M2 = A ++ B /\ (Forall (fine c sm) M2 -> rollFilter c sm M2 (chain s M1) = Some (chain (fold s A) B)) /\
    (forall l', rollFilter c sm M2 (chain s M1) = Some l' -> l' = chain (fold s A) B) /\ (A <> [] -> (98 <= length B)%nat).
Proof.
  induction M2 as [|m M2 IH]; intros s lo M1 K AP.
  - exists [], M1. rewrite app_nil_r. split; [reflexivity|]. cbn [EstModel.rollFilter]. split; [reflexivity|]. split; [intros l1 Q; change (Some (chain s M1) = Some l1) in Q; change (fold s []) with s; congruence|intros NE; contradiction NE; reflexivity].
  - assert (AP1 : apart lo M1 /\ apart (final lo M1) (m :: M2)) by (apply apart_app, AP). destruct AP1 as [AP1 AP2]. cbn [apart] in AP2. destruct AP2 as (L & I & AP2).
    destruct (fold_tracks M1 s lo K AP1) as [N KT].
    destruct (handle_next c sm m (chain s M1) (fold s M1) (back_chain _ _) N I ltac:(lia)) as [HF HI]. rewrite <- fold_snoc in HF, HI.
    destruct (push_chain s M1 m) as (A1 & B1 & E1 & PU & LEN). rewrite PU in HF, HI.
    assert (E1' : M1 ++ m :: M2 = A1 ++ (B1 ++ M2)) by (rewrite app_assoc, <- E1, <- app_assoc; reflexivity).
    assert (APX : apart lo (A1 ++ (B1 ++ M2))) by (rewrite <- E1'; exact AP). apply apart_app in APX. destruct APX as [APA APB].
    destruct (IH (fold s A1) (final lo A1) B1 (fold_tracks A1 s lo K APA) APB) as (A2 & B2 & E2 & RF & RI & LB).
    exists (A1 ++ A2), B2. split; [rewrite E1', E2, app_assoc; reflexivity|]. rewrite fold_app. cbn [EstModel.rollFilter]. split; [|split].
    + intros F. inversion F; subst. rewrite HF by assumption. cbn [bind]. apply RF. assumption.
    + intros l'. destruct (handleMeas c sm m (chain s M1)) as [l1|] eqn:Q; [|discriminate]. cbn [bind]. rewrite (HI _ eq_refl). apply RI.
    + intros NE. destruct A2 as [|a2 A2]; [|apply LB; discriminate]. cbn [app] in E2. subst B2. destruct LEN as [ -> |(a & -> & LEN)]; [contradiction NE; reflexivity|].
      rewrite app_length. assert (Q : length (M1 ++ [m]) = length ([a] ++ B1)) by congruence. rewrite !app_length in Q. cbn [length] in Q. lia.
Qed.

(** ** Placing a measurement *)
Definition clear_of (m : meas) (lo : Z) (M : list meas) : Prop := 50002 <= Z.abs (time m - lo) /\ Forall (fun x => 50002 <= Z.abs (time m - time x)) M.
Lemma before_ok (m x : meas) : in_session t0 (m_t m) -> in_session t0 (m_t x) -> time m <> time x -> before m x = (time m <? time x).
Proof.
  intros I J NE. unfold before. rewrite (near_eq t0) by (apply near_session; assumption). destruct (Z.eqb_spec (instant (m_t m)) (instant (m_t x))); [contradiction|].
  apply (near_lt t0); apply near_session; assumption.
Qed.
Lemma place (m : meas) M : forall lo, in_session t0 (m_t m) -> apart lo M -> lo + 50002 <= time m -> Forall (fun x => 50002 <= Z.abs (time m - time x)) M ->
  exists A B, M = A ++ B /\ insert m M = A ++ m :: B /\ inserted m M = m :: B /\ apart lo (A ++ m :: B) /\ final lo A + 50002 <= time m /\ Forall (fun x => time m + 50002 <= time x) B.
Proof.
  induction M as [|x M IH]; intros lo I AP L F.
  - exists [], []. split; [reflexivity|]. split; [reflexivity|]. split; [reflexivity|]. split; [cbn [app apart]; auto|]. split; [unfold final; cbn [fold_left]; lia|constructor].
  - cbn [apart] in AP. destruct AP as (Lx & Ix & AP). inversion F as [|? ? Fx FM]; subst. cbn [insert inserted]. rewrite before_ok by (try assumption; lia). destruct (Z.ltb_spec (time m) (time x)) as [Q|Q].
    + exists [], (x :: M). split; [reflexivity|]. split; [reflexivity|]. split; [reflexivity|]. split; [cbn [app apart]; split; [exact L|]; split; [exact I|]; split; [lia|]; split; [exact Ix|exact AP]|].
      split; [unfold final; cbn [fold_left]; lia|]. constructor; [lia|]. apply Forall_forall. intros y Y. destruct (apart_all _ _ AP) as [_ IN]. specialize (IN _ Y). lia.
    + destruct (IH (time x) I AP ltac:(lia) FM) as (A & B & -> & E1 & E2 & AP2 & L2 & FB). exists (x :: A), B. rewrite E1, E2. split; [reflexivity|]. split; [reflexivity|]. split; [reflexivity|].
      split; [cbn [app apart]; split; [exact Lx|]; split; [exact Ix|exact AP2]|]. split; [exact L2|exact FB].
Qed.
Lemma place_skip (m : meas) A : forall lo M, in_session t0 (m_t m) -> apart lo A -> final lo A + 50002 <= time m -> insert m (A ++ M) = A ++ insert m M /\ inserted m (A ++ M) = inserted m M.
Proof.
  induction A as [|x A IH]; intros lo M I AP L; cbn [app]; [auto|]. destruct (apart_all _ _ AP) as [_ IN]. specialize (IN x (or_introl eq_refl)). cbn [apart] in AP. destruct AP as (Lx & Ix & AP).
  assert (TX : time x <= final lo (x :: A)) by lia. cbn [insert inserted]. rewrite before_ok by (try assumption; lia). destruct (Z.ltb_spec (time m) (time x)); [lia|].
  destruct (IH (time x) M I AP L) as [E1 E2]. rewrite E1, E2. auto.
Qed.
Lemma lower_bound_skip t (A : list meas) : forall (M : list meas), in_session t0 t -> Forall (fun x => in_session t0 (m_t x) /\ time x < instant t) A -> lower_bound t (A ++ M) = lower_bound t M.
Proof.
  induction A as [|x A IH]; intros M I F; [reflexivity|]. inversion F as [|? ? (Ix & Lx) FA]; subst. cbn [app lower_bound]. unfold at_or_after. rewrite (near_eq t0), (near_lt t0) by (apply near_session; assumption).
  unfold time in Lx. destruct (Z.eqb_spec (instant (m_t x)) (instant t)); [lia|]. destruct (Z.ltb_spec (instant (m_t x)) (instant t)); [|lia]. cbn [negb]. apply IH; assumption.
Qed.
Lemma rewind_chain s lo A : forall B (m : meas), tracks s lo -> apart lo (A ++ B) -> near t0 (m_t m) -> final lo A + 2 <= time m -> Forall (fun x => time m + 2 <= time x) B ->
  rewind (m_t m) (rev (chain s (A ++ B))) = Some (rev (chain s A)).
Proof.
  induction B as [|x B IH] using rev_ind; intros m K AP N L F.
  - rewrite app_nil_r. destruct (chain_back A s) as (a & E). rewrite E, rev_app_distr. cbn [rev app rewind]. destruct (fold_tracks A s lo K) as [N2 K2]; [apply apart_app in AP; apply AP|].
    rewrite (near_gt t0) by assumption. destruct (Z.gtb_spec (instant (s_t (fold s A))) (instant (m_t m))); [unfold time in *; lia|]. reflexivity.
  - rewrite app_assoc in *. rewrite chain_snoc, rev_app_distr. cbn [rev app rewind]. destruct (fold_tracks _ s lo K AP) as [N2 K2]. apply Forall_app in F. destruct F as [F Fx]. inversion Fx; subst.
    rewrite final_app in K2. unfold final in K2 at 1. cbn [fold_left] in K2. rewrite (near_gt t0) by assumption.
    destruct (Z.gtb_spec (instant (s_t (fold s ((A ++ B) ++ [x])))) (instant (m_t m))); [|unfold time in *; lia]. apply IH; try assumption. apply apart_app in AP. apply AP.
Qed.
(** ** Dropping what is old *)
(** the states of [M2] are kept after those of [M1] are dropped; so are its measurements *)
Lemma drop_ok t : forall M s lo, near t0 t -> tracks s lo -> apart lo M -> instant t <= final lo M - 2 ->
  exists A B, M = A ++ B /\ drop_states t (chain s M) = Some (chain (fold s A) B) /\ instant t - 50001 <= final lo A /\
    forall a1 a2, A = a1 ++ a2 -> a2 <> [] -> final lo a1 < instant t - 49998.
Proof.
  induction M as [|m M IH]; intros s lo N K AP L; rewrite chain_eq; cbn [drop_states].
  - unfold final in L. cbn [fold_left] in L. destruct K as [NS K]. rewrite (near_q_lt t0) by assumption. cbn [bind]. destruct (Z.ltb_spec 50000 (instant t - instant (s_t s))); [lia|].
    exists [], []. split; [reflexivity|]. split; [reflexivity|]. split; [unfold final; cbn [fold_left]; lia|]. intros a1 a2 E. symmetry in E. apply app_eq_nil in E. destruct E as [_ ->]. congruence.
  - destruct K as [NS K]. rewrite (near_q_lt t0) by assumption. cbn [bind]. destruct (Z.ltb_spec 50000 (instant t - instant (s_t s))) as [Q|Q].
    + cbn [apart] in AP. destruct AP as (Lm & I & AP). destruct (nxt_ok s m NS I ltac:(lia)) as (_ & _ & _ & T).
      destruct (IH (nxt s m) (time m) N T AP L) as (A & B & -> & E & LA & LO). exists (m :: A), B. split; [reflexivity|]. split; [exact E|]. split; [exact LA|].
      intros a1 a2 EA NE. destruct a1 as [|x a1]; [unfold final; cbn [fold_left]; lia|]. cbn [app] in EA. injection EA as <- EA. apply (LO a1 a2 EA NE).
    + exists [], (m :: M). split; [reflexivity|]. split; [reflexivity|]. split; [unfold final; cbn [fold_left]; lia|]. intros a1 a2 E. symmetry in E. apply app_eq_nil in E. destruct E as [_ ->]. congruence.
Qed.
Lemma apart_final_in lo (M : list meas) m : final lo (M ++ [m]) = time m.
Proof. rewrite final_app. reflexivity. Qed.

Lemma app_split {T} (a : list T) : forall b c d, a ++ b = c ++ d -> (exists e, e <> [] /\ c = a ++ e /\ b = e ++ d) \/ (exists e, a = c ++ e /\ d = e ++ b).
Proof.
  induction a as [|x a IH]; intros b c d E.
  - destruct c as [|y c]; [right; exists []; auto|]. left. exists (y :: c). split; [discriminate|]. auto.
  - destruct c as [|y c]; [right; exists (x :: a); auto|]. cbn [app] in E. injection E as <- E. destruct (IH _ _ _ E) as [(e & N & -> & ->)|(e & -> & ->)]; [left|right]; exists e; auto.
Qed.
Lemma lower_bound_app t (Q B : list meas) : (match B with [] => True | x :: _ => at_or_after t x = true end) -> lower_bound t (Q ++ B) = lower_bound t Q ++ B.
Proof.
  intros HB. induction Q as [|x Q IH]; cbn [app lower_bound].
  - destruct B as [|x B]; [reflexivity|]. cbn [lower_bound]. rewrite HB. reflexivity.
  - destruct (at_or_after t x); [reflexivity|exact IH].
Qed.
Lemma lower_bound_suffix t (Q : list meas) : exists R, Q = R ++ lower_bound t Q.
Proof. induction Q as [|x Q (R & E)]; cbn [lower_bound]; [exists []; reflexivity|]. destruct (at_or_after t x); [exists []; reflexivity|]. exists (x :: R). cbn [app]. congruence. Qed.

Variables (x0 : X) (u0 : U).
Definition start : snapshot := mkSnap t0 x0 u0.
Notation lo0 := (instant t0).
Definition inv (M : list meas) (e : est) : Prop :=
  apart lo0 M /\ exists Ma Mb Mc, M = Ma ++ Mb ++ Mc /\ measurements e = Mb ++ Mc /\ states e = chain (fold start (Ma ++ Mb)) Mc /\
    forall a1 a2, Ma ++ Mb = a1 ++ a2 -> a2 <> [] -> final lo0 a1 < final lo0 M - 1000049998 \/ (99 + length a1 <= length M)%nat.
Lemma inv_init : inv [] (init t0 x0 u0).
Proof. split; [exact I|]. exists [], [], []. repeat (split; [reflexivity|]). intros a1 a2 E NE. symmetry in E. apply app_eq_nil in E. destruct E as [_ ->]. congruence. Qed.
Lemma start_tracks : tracks start lo0.
Proof. split; [apply near0|]. cbn [start s_t]. lia. Qed.
Lemma final_mono lo (A B : list meas) m : apart lo (A ++ m :: B) -> final lo (A ++ B) <= final lo (A ++ m :: B).
Proof.
  intros AP. destruct B as [|b B _] using rev_ind.
  - rewrite app_nil_r, apart_final_in. apply apart_app in AP. destruct AP as [_ AP]. cbn [apart] in AP. lia.
  - rewrite app_assoc, apart_final_in. replace (A ++ m :: B ++ [b]) with ((A ++ m :: B) ++ [b]) by (rewrite <- app_assoc; reflexivity). rewrite apart_final_in. lia.
Qed.

Lemma snoc_cases {T} (l : list T) : l = [] \/ exists a z, l = a ++ [z].
Proof. destruct l as [|z a _] using rev_ind; [left; reflexivity|right; eauto]. Qed.
Lemma apart_in M : forall lo x, apart lo M -> In x M -> in_session t0 (m_t x).
Proof. induction M as [|m M IH]; intros lo x A; cbn [apart In] in *; [contradiction|]. destruct A as (_ & I & A). intros [ <- |J]; [exact I|]. eapply IH; eauto. Qed.
Lemma add_step M e m : inv M e -> in_session t0 (m_t m) -> clear_of m lo0 M ->
  (exists f, front (states e) = Some f /\ tracks f (instant (s_t f)) /\ (50000 < instant (s_t f) - time m \/ unknown (m_z m) (caches e) = true) /\ addMeasurement m e = Some (false, e)) \/
  (unknown (m_z m) (caches e) = false /\ exists A B e', M = A ++ B /\ inv (A ++ m :: B) e' /\ caches e' = caches e /\ sats e' = sats e /\
    (Forall (fine (caches e) (sats e)) (m :: M) -> addMeasurement m e = Some (true, e')) /\ forall r, addMeasurement m e = Some r -> r = (true, e')).
Proof.
  intros (AP & Ma & Mb & Mc & -> & EM & ES & DROP) I (CL0 & CL). set (f := fold start (Ma ++ Mb)) in *. set (lo := final lo0 (Ma ++ Mb)).
  assert (APs : apart lo0 (Ma ++ Mb) /\ apart lo Mc) by (apply apart_app; rewrite <- app_assoc; exact AP). destruct APs as [APf APc].
  assert (K : tracks f lo) by (apply fold_tracks; [apply start_tracks|exact APf]).
  assert (FR : front (states e) = Some f) by (rewrite ES, chain_eq; reflexivity).
  unfold EstModel.addMeasurement. rewrite FR. cbn [bind]. rewrite (near_tq_lt t0) by (first [assumption|apply near_session; assumption|apply K]). cbn [bind].
  destruct (Z.ltb_spec 50000 (instant (s_t f) - instant (m_t m))) as [ST|ST]; cbn [orb].
  { left. exists f. split; [reflexivity|]. split; [split; [apply K|lia]|]. split; [left; exact ST|reflexivity]. }
  destruct (unknown (m_z m) (caches e)) eqn:UK.
  { left. exists f. split; [reflexivity|]. split; [split; [apply K|lia]|]. split; [right; reflexivity|reflexivity]. }
  right. split; [reflexivity|].
  assert (L : lo + 50002 <= time m).
  { assert (50002 <= Z.abs (time m - lo)).
    { unfold lo. destruct (snoc_cases (Ma ++ Mb)) as [Q|(Z & z & Q)]; rewrite Q; [exact CL0|]. rewrite apart_final_in. rewrite app_assoc, Q in CL. apply Forall_app in CL. destruct CL as [CL _].
      rewrite Forall_forall in CL. apply CL. apply in_or_app. right. left. reflexivity. }
    destruct K as [_ K]. unfold time in *. lia. }
  assert (CLc : Forall (fun x => 50002 <= Z.abs (time m - time x)) Mc) by (apply Forall_app in CL; destruct CL as [_ CL]; apply Forall_app in CL; apply CL).
  destruct (place m Mc lo I APc L CLc) as (C1 & C2 & -> & EI & EJ & AP2 & LC & FB).
  assert (APab : apart (final lo0 Ma) Mb) by (apply apart_app in APf; apply APf).
  destruct (place_skip m Mb (final lo0 Ma) (C1 ++ C2) I APab) as [SK1 SK2]; [rewrite <- final_app; exact L|]. rewrite EI in SK1. rewrite EJ in SK2. rewrite EM, SK1, SK2.
  rewrite ES, back_chain. cbn [bind].
  assert (K12 : tracks (fold f (C1 ++ C2)) (final lo (C1 ++ C2))) by (apply fold_tracks; assumption).
  assert (EL : (if lt (m_t m) (s_t (fold f (C1 ++ C2))) then match lower_bound (m_t m) (Mb ++ C1 ++ m :: C2) with [] => None | c :: _ => do r <- rewind (m_t c) (rev (chain f (C1 ++ C2))); Some (rev r) end
                else Some (chain f (C1 ++ C2))) = Some (chain f C1)).
  { rewrite (near_lt t0) by (first [apply near_session; assumption|apply K12]). destruct K12 as [_ K12]. destruct C2 as [|z Z _] using rev_ind.
    - rewrite app_nil_r in *. destruct (Z.ltb_spec (instant (m_t m)) (instant (s_t (fold f C1)))); [unfold time in *; lia|reflexivity].
    - rewrite app_assoc, apart_final_in in K12. apply Forall_app in FB. destruct FB as [FB1 FB2]. inversion FB2; subst. rewrite (app_assoc C1 Z [z]).
      destruct (Z.ltb_spec (instant (m_t m)) (instant (s_t (fold f ((C1 ++ Z) ++ [z]))))); [|unfold time in *; lia].
      rewrite (app_assoc Mb). rewrite (lower_bound_skip (m_t m)); [|exact I|].
      + cbn [lower_bound]. unfold at_or_after. rewrite (near_eq t0) by (apply near_session; assumption). rewrite Z.eqb_refl.
        rewrite <- app_assoc. rewrite (rewind_chain f lo C1 (Z ++ [z]) m K); [cbn [bind]; rewrite rev_involutive; reflexivity|exact APc|apply near_session, I|lia|].
        apply Forall_app. split; [eapply Forall_impl; [|exact FB1]; cbv beta; intros; lia|constructor; [lia|constructor]].
      + apply Forall_app. destruct (apart_all _ _ APf) as [_ INf]. fold lo in INf. assert (APc1 : apart lo C1) by (apply apart_app in APc; apply APc). destruct (apart_all _ _ APc1) as [LL INc].
        split; apply Forall_forall; intros x J.
        * split; [eapply apart_in; [exact APf|apply in_or_app; right; exact J]|]. specialize (INf x ltac:(apply in_or_app; right; exact J)). unfold time in *. lia.
        * split; [eapply apart_in; [exact APc1|exact J]|]. specialize (INc x J). unfold time in *. lia. }
  rewrite EL. clear EL. cbn [bind].
  assert (APr : apart lo (C1 ++ m :: C2)) by exact AP2.
  destruct (roll_ok (caches e) (sats e) (m :: C2) f lo C1 K APr) as (A & B & EAB & RF & RI & LB).
  set (M' := (Ma ++ Mb ++ C1) ++ m :: C2).
  assert (EM' : M' = (Ma ++ Mb) ++ A ++ B) by (unfold M'; rewrite <- EAB, <- !app_assoc; reflexivity).
  assert (APM : apart lo0 M') by (rewrite EM'; apply apart_app; split; [exact APf|fold lo; rewrite <- EAB; exact APr]).
  assert (APA : apart lo A /\ apart (final lo A) B) by (apply apart_app; rewrite <- EAB; exact APr). destruct APA as [APA APB].
  assert (FM : final lo0 M' = final (final lo A) B) by (rewrite EM', (final_app lo0 (Ma ++ Mb)), (final_app _ A B); reflexivity).
  assert (KA : tracks (fold f A) (final lo A)) by (apply fold_tracks; assumption).
  (* the newest measurement *)
  destruct (snoc_cases (m :: C2)) as [Q|(Z & z & Q)]; [discriminate|].
  assert (ZI : in_session t0 (m_t z) /\ time z = final lo0 M').
  { split; [eapply apart_in; [exact APM|]; unfold M'; rewrite Q; apply in_or_app; right; apply in_or_app; right; left; reflexivity|]. unfold M'. rewrite Q, app_assoc, apart_final_in. reflexivity. }
  destruct ZI as [ZI ZT]. destruct (one_second (m_t z)) as (ts & TS & TN & TI); [apply ZI|apply (near_sec _ _ T0 (near_session _ _ ZI))|].
  assert (NT : near t0 ts).
  { split; [exact TN|]. destruct (apart_all _ _ APM) as [GE _]. unfold in_session in ZI. unfold time in ZT. lia. }
  assert (TSle : instant ts <= final (final lo A) B - 2) by (rewrite <- FM, <- ZT; unfold time; lia).
  destruct (drop_ok ts B (fold f A) (final lo A) NT KA APB TSle) as (A2 & B2 & EB & DS & LA & LO).
  set (ms := Mb ++ C1 ++ m :: C2).
  assert (RV : rev ms = z :: rev (Mb ++ C1 ++ Z)) by (unfold ms; rewrite Q, !app_assoc, rev_app_distr; reflexivity).
  assert (EMS : ms = (Mb ++ A ++ A2) ++ B2) by (unfold ms; rewrite EAB, EB, <- !app_assoc; reflexivity).
  assert (LBD : lower_bound ts ms = lower_bound ts (Mb ++ A ++ A2) ++ B2).
  { rewrite EMS. apply lower_bound_app. destruct B2 as [|b B2]; [exact Logic.I|]. rewrite EB in APB. apply apart_app in APB. destruct APB as [_ APB]. cbn [apart] in APB. destruct APB as (Lb & Ib & _).
    unfold at_or_after. rewrite (near_eq t0), (near_lt t0) by (first [exact NT|apply near_session; exact Ib]). destruct (Z.eqb_spec (instant (m_t b)) (instant ts)); [reflexivity|].
    destruct (Z.ltb_spec (instant (m_t b)) (instant ts)); [unfold time in Lb; lia|reflexivity]. }
  destruct (lower_bound_suffix ts (Mb ++ A ++ A2)) as (R & ER). set (Mb' := lower_bound ts (Mb ++ A ++ A2)) in *.
  assert (DO : dropOldMeasurements ms (chain (fold f A) B) = Some (Mb' ++ B2, chain (fold (fold f A) A2) B2)).
  { unfold dropOldMeasurements. rewrite RV, TS. cbn [bind]. rewrite DS. cbn [bind]. rewrite LBD. reflexivity. }
  exists (Ma ++ Mb ++ C1), C2, (mkEst (Mb' ++ B2) (chain (fold (fold f A) A2) B2) (caches e) (sats e)).
  assert (EMa : (Ma ++ R) ++ Mb' = (Ma ++ Mb) ++ A ++ A2) by (rewrite <- !app_assoc; f_equal; rewrite <- ER; reflexivity).
  split; [rewrite <- !app_assoc; reflexivity|]. split; [|split; [reflexivity|split; [reflexivity|split]]].
  - split; [exact APM|]. exists (Ma ++ R), Mb', B2. split; [fold M'; rewrite (app_assoc (Ma ++ R)), EMa, EM', EB, <- !app_assoc; reflexivity|]. split; [reflexivity|].
    split; [cbn [states]; rewrite EMa, (fold_app start (Ma ++ Mb)), (fold_app _ A A2); reflexivity|]. fold M'. rewrite EMa. intros a1 a2 EA NE.
    assert (MONO : final lo0 (Ma ++ Mb ++ C1 ++ C2) <= final lo0 M') by (replace (Ma ++ Mb ++ C1 ++ C2) with ((Ma ++ Mb ++ C1) ++ C2) by (rewrite <- !app_assoc; reflexivity); apply final_mono; exact APM).
    assert (LEN : length M' = S (length (Ma ++ Mb ++ C1 ++ C2))) by (unfold M'; rewrite !app_length; cbn [length]; lia).
    symmetry in EA. destruct (app_split _ _ _ _ EA) as [(x & XN & E1 & E2)|(x & -> & E2)].
    + destruct (DROP a1 x E1 XN) as [G|G]; [left; lia|right; lia].
    + symmetry in E2. destruct (app_split _ _ _ _ E2) as [(y & YN & E3 & E4)|(y & -> & E4)].
      * right. assert (AN : A <> []) by (rewrite E3; destruct x; [exact YN|discriminate]). specialize (LB AN). rewrite EM', E3, !app_length. destruct y; [contradiction|cbn [length]]. lia.
      * left. specialize (LO y a2 E4 NE). rewrite (final_app lo0 (Ma ++ Mb)), (final_app _ A y). fold lo. rewrite <- ZT. unfold time at 1. lia.
  - intros F. rewrite RF; [|inversion F as [|? ? F1 F2]; subst; constructor; [exact F1|]; rewrite !Forall_app in F2; tauto]. cbn [bind]. fold ms. rewrite DO. reflexivity.
  - intros r. destruct (rollFilter (caches e) (sats e) (m :: C2) (chain f C1)) as [l1|] eqn:RO; [|discriminate]. cbn [bind]. rewrite (RI _ eq_refl). fold ms. rewrite DO. cbn [bind fst snd]. congruence.
Qed.

(** ** Whole histories *)
Lemma far_sym a b : 50002 <= Z.abs (a - b) -> 50002 <= Z.abs (b - a).
Proof. lia. Qed.
Lemma fop_app {T} (R : T -> T -> Prop) l1 : forall l2, ForallOrdPairs R (l1 ++ l2) -> ForallOrdPairs R l1 /\ ForallOrdPairs R l2 /\ forall a b, In a l1 -> In b l2 -> R a b.
Proof.
  induction l1 as [|x l1 IH]; intros l2 F; cbn [app] in F; [split; [constructor|split; [exact F|contradiction]]|]. inversion F as [|? ? Fx F']; subst. destruct (IH _ F') as (F1 & F2 & F3).
  apply Forall_app in Fx. destruct Fx as [Fa Fb]. split; [constructor; assumption|]. split; [exact F2|]. intros a b [ <- |J] K; [rewrite Forall_forall in Fb; auto|auto].
Qed.
Lemma separated_clear (A : list meas) m rest : separated (lo0 :: map time (A ++ m :: rest)) -> clear_of m lo0 A.
Proof.
  unfold separated. rewrite map_app. cbn [map]. change (lo0 :: map time A ++ time m :: map time rest) with ((lo0 :: map time A) ++ time m :: map time rest). intros F. destruct (fop_app _ _ _ F) as (_ & _ & R).
  split; [apply far_sym; apply R; left; reflexivity|]. apply Forall_forall. intros x J. apply far_sym. apply R; [right; apply in_map; exact J|left; reflexivity].
Qed.
Lemma clear_perm m (A M : list meas) : Permutation A M -> clear_of m lo0 A -> clear_of m lo0 M.
Proof. intros PM [C F]. split; [exact C|]. eapply Permutation_Forall; eauto. Qed.

Lemma run_inv l : forall e bs e' A M, run l e = Some (bs, e') -> inv M e -> Permutation A M -> Forall (fun m => in_session t0 (m_t m)) (offered l) ->
  separated (lo0 :: map time (A ++ accepted l bs)) -> exists M', Permutation (A ++ accepted l bs) M' /\ inv M' e'.
Proof.
  induction l as [|c l IH]; intros e bs e' A M E IV PM F SEP; cbn [EstModel.run] in E.
  - injection E as <- <-. exists M. cbn [accepted]. rewrite app_nil_r. auto.
  - destruct c as [m|y ee]; cbn [offered] in F.
    + inversion F; subst. destruct (addMeasurement m e) as [[b e1]|] eqn:AD; [|discriminate]. cbn [bind snd fst] in E. destruct (run l e1) as [[bs1 e2]|] eqn:R; [|discriminate]. cbn [bind fst snd] in E. injection E as <- <-.
      cbn [accepted] in SEP |- *. destruct b.
      * pose proof (clear_perm _ _ _ PM (separated_clear _ _ _ SEP)) as CL. destruct (add_step M e m IV ltac:(assumption) CL) as [(f & _ & _ & _ & Q)|(_ & A1 & B1 & e3 & -> & IV3 & _ & _ & _ & U3)]; [congruence|].
        specialize (U3 _ AD). injection U3 as ->. destruct (IH e3 bs1 e2 (A ++ [m]) (A1 ++ m :: B1) R IV3) as (M' & PM' & IV'); [|assumption|rewrite <- app_assoc; exact SEP|].
        { rewrite <- (Permutation_cons_append A m). rewrite PM. apply Permutation_middle. }
        exists M'. split; [|exact IV']. rewrite <- app_assoc in PM'. exact PM'.
      * assert (e1 = e). { unfold EstModel.addMeasurement in AD. destruct (front (states e)); [|discriminate]. cbn [bind] in AD. destruct (tq_lt _ _); [|discriminate]. cbn [bind] in AD. destruct (_ || _); [congruence|].
          repeat match type of AD with context [bind ?a _] => destruct a; [|discriminate]; cbn [bind] in AD end. discriminate. }
        subst e1. eapply IH; eauto.
    + destruct (estEph y ee e) as [e1|] eqn:Q; [|discriminate]. cbn [bind] in E. destruct bs as [|b0 bs]; (eapply IH; [exact E| |exact PM|exact F|exact SEP]);
        unfold estEph in Q; destruct (ephCb y ee (sats e)); try discriminate; cbn [bind] in Q; injection Q as <-; exact IV.
Qed.
Lemma apart_unique M : forall lo M', apart lo M -> apart lo M' -> Permutation M M' -> M = M'.
Proof.
  induction M as [|m M IH]; intros lo M' A A' PM; [apply Permutation_nil in PM; congruence|]. destruct M' as [|m' M']; [symmetry in PM; apply Permutation_nil in PM; discriminate|].
  cbn [apart] in A, A'. destruct A as (L & I & A), A' as (L' & I' & A').
  assert (Q : m = m').
  { assert (J : In m (m' :: M')) by (rewrite <- PM; left; reflexivity). assert (J' : In m' (m :: M)) by (rewrite PM; left; reflexivity).
    destruct J as [J|J]; [congruence|]. destruct J' as [J'|J']; [congruence|]. pose proof (proj2 (apart_all _ _ A) _ J'). pose proof (proj2 (apart_all _ _ A') _ J). lia. }
  subst m'. f_equal. apply Permutation_cons_inv in PM. eapply IH; eauto.
Qed.
Lemma run_current l bs e : run l (init t0 x0 u0) = Some (bs, e) -> Forall (fun m => in_session t0 (m_t m)) (offered l) -> separated (lo0 :: map time (accepted l bs)) ->
  exists M, Permutation (accepted l bs) M /\ apart lo0 M /\ current e = Some (fold start M) /\ inv M e.
Proof.
  intros E F S. destruct (run_inv l _ _ _ [] [] E inv_init (Permutation_refl _) F S) as (M & PM & IV). exists M. cbn [app] in PM. split; [exact PM|]. pose proof IV as (AP & Ma & Mb & Mc & -> & _ & ES & _).
  split; [exact AP|]. split; [|exact IV]. unfold current. rewrite ES, back_chain, <- fold_app, <- app_assoc. reflexivity.
Qed.
Lemma order_free l l' bs bs' e e' : run l (init t0 x0 u0) = Some (bs, e) -> run l' (init t0 x0 u0) = Some (bs', e') ->
  Forall (fun m => in_session t0 (m_t m)) (offered l) -> Forall (fun m => in_session t0 (m_t m)) (offered l') ->
  Permutation (accepted l bs) (accepted l' bs') -> separated (lo0 :: map time (accepted l bs)) -> current e = current e'.
Proof.
  intros E E' F F' PM S. assert (S' : separated (lo0 :: map time (accepted l' bs'))).
  { unfold separated in *. inversion S as [|? ? S1 S2]; subst. constructor.
    - eapply Permutation_Forall; [apply Permutation_map; exact PM|exact S1].
    - clear -S2 PM. revert S2. generalize (Permutation_map time PM). generalize (map time (accepted l bs)) (map time (accepted l' bs')). clear. intros a b PM. induction PM; intros F.
      + exact F.
      + inversion F; subst. constructor; [eapply Permutation_Forall; eauto|auto].
      + inversion F as [|? ? F1 F2]; subst. inversion F2; subst. inversion F1; subst. constructor; [constructor; [lia|assumption]|constructor; assumption].
      + auto. }
  destruct (run_current _ _ _ E F S) as (M & P1 & A1 & C1 & _). destruct (run_current _ _ _ E' F' S') as (M' & P2 & A2 & C2 & _).
  rewrite C1, C2. rewrite (apart_unique M lo0 M' A1 A2); [reflexivity|]. rewrite <- P1, <- P2. exact PM.
Qed.
(** what is recent enough is accepted *)
Lemma newer_count lo (A B : list meas) a : apart lo ((A ++ [a]) ++ B) -> filter (fun x => time a <? time x) ((A ++ [a]) ++ B) = B.
Proof.
  intros AP. rewrite filter_app. apply apart_app in AP. destruct AP as [AP1 AP2]. rewrite apart_final_in in AP2. destruct (apart_all _ _ AP1) as [_ IN1]. rewrite apart_final_in in IN1. destruct (apart_all _ _ AP2) as [_ IN2].
  assert (E1 : forall L, (forall x, In x L -> time x <= time a) -> filter (fun x : meas => time a <? time x) L = []).
  { induction L as [|x L IHL]; intros Q; [reflexivity|]. cbn [filter]. pose proof (Q x (or_introl eq_refl)). destruct (Z.ltb_spec (time a) (time x)); [lia|]. apply IHL. intros; apply Q; right; assumption. }
  assert (E2 : forall L, (forall x, In x L -> time a < time x) -> filter (fun x : meas => time a <? time x) L = L).
  { induction L as [|x L IHL]; intros Q; [reflexivity|]. cbn [filter]. pose proof (Q x (or_introl eq_refl)). destruct (Z.ltb_spec (time a) (time x)); [|lia]. f_equal. apply IHL. intros; apply Q; right; assumption. }
  rewrite E1, E2; [reflexivity| |]; intros x J; [specialize (IN2 x J); lia|specialize (IN1 x J); lia].
Qed.
Lemma recent_accepted M e m a : inv M e -> in_session t0 (m_t m) -> clear_of m lo0 M -> unknown (m_z m) (caches e) = false -> In a M -> time a <= time m ->
  final lo0 M - 1000000000 <= time a -> (length (filter (fun x => (time a <? time x)%Z) M) <= 98)%nat -> forall r, addMeasurement m e = Some r -> fst r = true.
Proof.
  intros IV I CL UK IA LE AGE CNT r AD. destruct (add_step M e m IV I CL) as [(f & FR & _ & Q & _)|(_ & A1 & B1 & e3 & _ & _ & _ & _ & _ & U3)]; [exfalso|rewrite (U3 _ AD); reflexivity].
  destruct Q as [Q|Q]; [|congruence]. destruct IV as (AP & Ma & Mb & Mc & -> & _ & ES & DROP). rewrite ES, chain_eq in FR. cbn [front] in FR. injection FR as <-.
  rewrite app_assoc in *. apply in_split in IA. destruct IA as (L1 & L2 & EL). assert (EL' : (Ma ++ Mb) ++ Mc = (L1 ++ [a]) ++ L2) by (rewrite EL, <- app_assoc; reflexivity).
  assert (K : tracks (fold start (Ma ++ Mb)) (final lo0 (Ma ++ Mb))) by (apply fold_tracks; [apply start_tracks|apply apart_app in AP; apply AP]). destruct K as [_ K].
  assert (LL : time a = final lo0 (L1 ++ [a])) by (rewrite apart_final_in; reflexivity).
  destruct (app_split _ _ _ _ EL') as [(x & XN & E1 & E2)|(x & E1 & E2)].
  - rewrite LL, E1, final_app in LE.
    assert (APx : apart (final lo0 (Ma ++ Mb)) x). { apply apart_app in AP. destruct AP as [_ AP]. rewrite E2 in AP. apply apart_app in AP. apply AP. }
    pose proof (proj1 (apart_all _ _ APx)). unfold time in *. lia.
  - destruct x as [|b x].
    + rewrite app_nil_r in E1. rewrite E1 in K. rewrite <- LL in K. unfold time in *. rewrite E1 in Q. lia.
    + rewrite EL' in CNT. rewrite (newer_count lo0) in CNT by (rewrite <- EL'; exact AP). destruct (DROP (L1 ++ [a]) (b :: x) E1 ltac:(discriminate)) as [G|G].
      * rewrite <- LL in G. lia.
      * rewrite EL', !app_length in G. lia.
Qed.
End Session.
End Est.
