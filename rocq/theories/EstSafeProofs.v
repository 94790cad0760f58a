(** The estimator does not end the process on histories with separated times. *)
From Coq Require Import ZArith Lia List Bool Permutation.
From Verif Require Import UtcTimeModel UtcTimeSpec UtcTimeProofs Float64 QuantizedModel UtcDoubleModel SatModel SatSpec SatProofs EstModel EstSpec EstTimeProofs EstProofs.
Import ListNotations.
Local Open Scope Z_scope.

Lemma cacheId_add g n : 0 <= n < 256 -> cacheId g n = g * 256 + n.
Proof.
  intros R. unfold cacheId. assert (L : Z.land (Z.shiftl g 8) n = 0).
  { apply Z.bits_inj'. intros i Hi. rewrite Z.land_spec, Z.bits_0. destruct (Z.ltb_spec i 8).
    - rewrite Z.shiftl_spec by exact Hi. rewrite Z.testbit_neg_r by lia. reflexivity.
    - destruct (Z.eq_dec n 0) as [ -> |NZ]; [rewrite Z.bits_0, andb_false_r; reflexivity|]. rewrite (Z.bits_above_log2 n i); [apply andb_false_r|lia|].
      apply Z.log2_lt_pow2; [lia|]. assert (2 ^ 8 <= 2 ^ i) by (apply Z.pow_le_mono_r; lia). lia. }
  rewrite <- Z.lxor_lor, <- Z.add_nocarry_lxor by exact L. rewrite Z.shiftl_mul_pow2 by lia. reflexivity.
Qed.
Lemma cacheId_inj g n g' n' : 0 <= n < 256 -> 0 <= n' < 256 -> cacheId g n = cacheId g' n' -> g = g' /\ n = n'.
Proof. intros R R' E. rewrite !cacheId_add in E by assumption. lia. Qed.
Lemma sys_id_inj y y' : sys_id y = sys_id y' -> y = y'.
Proof. destruct y, y'; cbn; congruence. Qed.

Section Est.
Context {X U P H D : Type}.
Variable propagate : X -> b64 -> U -> X.
Variable with_pos : X -> U -> P -> X.
Variable with_hold : X -> H -> X.
Notation meas := (meas U P H).
Notation est := (est X U P H D).
Notation call := (call U P H D).
Notation addMeasurement := (addMeasurement (D := D) propagate with_pos with_hold).
Notation run := (run (D := D) propagate with_pos with_hold).

Definition book (h : list (system * eph D)) (e : est) : Prop :=
  Forall ranged h /\ run_mgr h manager0 = Some (sats e) /\ forall k, In k (caches e) <-> exists y x, In (y, x) h /\ k = cacheId (sys_id y) (sat_no x).
Lemma run_mgr_app (a b : list (system * eph D)) m : run_mgr (a ++ b) m = bind (run_mgr a m) (run_mgr b).
Proof. revert m. induction a as [|[y e] a IH]; intros m; [reflexivity|]. cbn [app run_mgr]. destruct (ephCb y e m); cbn [bind]; auto. Qed.
Lemma genuine_all (h : list (system * eph D)) : Forall ranged h -> Forall genuine h.
Proof. apply Forall_impl. intros p Q. apply Q. Qed.
Lemma book_eph h e y x : book h e -> ranged (y, x) -> exists e', estEph y x e = Some e' /\ book (h ++ [(y, x)]) e' /\ measurements e' = measurements e /\ states e' = states e.
Proof.
  intros (F & R & C) G. assert (F' : Forall ranged (h ++ [(y, x)])) by (apply Forall_app; split; [exact F|constructor; [exact G|constructor]]).
  destruct (manager_ok (h ++ [(y, x)]) (genuine_all _ F')) as (m & E & _). pose proof E as E0. rewrite run_mgr_app, R in E. cbn [bind run_mgr] in E. destruct (ephCb y x (sats e)) as [m'|] eqn:Q; [|discriminate]. cbn [bind] in E. injection E as ->.
  unfold estEph. rewrite Q. cbn [bind]. eexists. split; [reflexivity|]. split; [|split; reflexivity]. split; [exact F'|]. cbn [sats caches]. split; [exact E0|]. intros k.
  assert (T : In k (caches e) <-> exists y1 x1, In (y1, x1) h /\ k = cacheId (sys_id y1) (sat_no x1)) by apply C.
  assert (S : (exists y1 x1, In (y1, x1) (h ++ [(y, x)]) /\ k = cacheId (sys_id y1) (sat_no x1)) <-> In k (caches e) \/ k = cacheId (sys_id y) (sat_no x)).
  { rewrite T. split.
    - intros (y1 & x1 & I & ->). apply in_app_or in I. destruct I as [I|[I|[]]]; [left; eauto|right]. congruence.
    - intros [(y1 & x1 & I & ->)| ->]; [exists y1, x1; split; [apply in_or_app; auto|reflexivity]|exists y, x; split; [apply in_or_app; right; left; reflexivity|reflexivity]]. }
  rewrite S. destruct (existsb (Z.eqb (cacheId (sys_id y) (sat_no x))) (caches e)) eqn:XB.
  - apply existsb_exists in XB. destruct XB as (k' & I & Q'). apply Z.eqb_eq in Q'. subst k'. split; [auto|]. intros [A| ->]; auto.
  - cbn [In]. split; intros [A|A]; auto.
Qed.
Lemma has_known h e g n : book h e -> 0 <= n < 256 -> (hasCache g n (caches e) = true <-> known_to h g n).
Proof.
  intros (F & _ & C) R. unfold hasCache. rewrite existsb_exists. split.
  - intros (k & I & Q). apply Z.eqb_eq in Q. subst k. apply C in I. destruct I as (y & x & I & Q). rewrite Forall_forall in F. destruct (F _ I) as [_ Rx]. cbn [snd] in Rx. apply cacheId_inj in Q; [|assumption|assumption]. destruct Q as [-> ->]. exists y, x. auto.
  - intros (y & x & I & <- & <-). exists (cacheId (sys_id y) (sat_no x)). split; [apply C; eauto|apply Z.eqb_refl].
Qed.
(** every observation is of a satellite whose ephemeris was received *)
Definition usable (h : list (system * eph D)) (m : meas) : Prop :=
  proper m /\ normal (m_t m) /\ match m_z m with Bundle l => Forall (fun o => known_to h (o_gnss o) (o_sat o)) l | _ => True end.
Lemma usable_more h h' m : usable h m -> usable (h ++ h') m.
Proof.
  intros (A & N & B). split; [exact A|]. split; [exact N|]. destruct (m_z m); try exact I. eapply Forall_impl; [|exact B]. intros o (y & x & J & Q). exists y, x. split; [apply in_or_app; auto|exact Q].
Qed.
Lemma usable_fine ns h e m : book h e -> few ns h -> usable h m -> fine (caches e) (sats e) m.
Proof.
  intros B (LN & IN) (PR & N & K). unfold fine, proper in *. destruct (m_z m) as [u|l|z|z]; try exact I. induction l as [|o l IH]; [reflexivity|]. inversion PR as [|? ? (T & (y & G) & R) PR']; subst. inversion K as [|? ? K1 K2]; subst.
  cbn [bundle]. rewrite T. rewrite eq_ok by assumption. rewrite Z.eqb_refl. unfold getCache. rewrite (proj2 (has_known h e _ _ B R) K1). destruct K1 as (y' & x & J & Q1 & Q2).
  destruct B as (F & RM & _). destruct (manager_all h (sats e) y' (ns y') (genuine_all _ F) RM (fun x0 => IN y' x0) (LN y') x J) as (s & GS). change (number y') with (sys_id y') in Q1. rewrite <- Q1, <- Q2, GS. cbn [bind]. apply IH; assumption.
Qed.

Section Session.
Variable t0 : utc.
Hypothesis T0 : start_ok t0.
Variables (x0 : X) (u0 : U).
Notation lo0 := (instant t0).
Notation inv := (inv (D := D) propagate with_pos with_hold t0 x0 u0).

Lemma run_safe ns l : forall e h A M, inv M e -> Permutation A M -> book h e -> Forall (usable h) M -> few ns (h ++ received_eph l) -> Forall ranged (received_eph l) ->
  Forall (fun m => in_session t0 (m_t m)) (offered l) -> Forall proper (offered l) -> separated (lo0 :: map time (A ++ offered l)) -> exists r, run l e = Some r.
Proof.
  induction l as [|c l IH]; intros e h A M IV PM B US FEW RE SE PR SEP; cbn [EstModel.run]; [eauto|]. destruct c as [m|y x]; cbn [offered received_eph] in *.
  - inversion SE as [|? ? I SE']; subst. inversion PR as [|? ? PM1 PR']; subst. pose proof (clear_perm t0 _ _ _ PM (separated_clear propagate with_pos with_hold t0 x0 u0 _ _ _ SEP)) as CL.
    destruct (add_step propagate with_pos with_hold t0 T0 x0 u0 M e m IV I CL) as [(f & _ & _ & _ & Q)|(UK & A1 & B1 & e3 & -> & IV3 & EC & ESa & OK & _)].
    + rewrite Q. cbn [bind snd fst]. destruct (IH e h A M) as (r & R); try assumption; [|rewrite R; cbn [bind]; eauto].
      unfold separated in *. inversion SEP as [|? ? S1 S2]; subst. rewrite map_app in *. cbn [map] in *. constructor.
      * apply Forall_app in S1. destruct S1 as [S1 S1']. inversion S1'; subst. apply Forall_app. auto.
      * clear -S2. induction (map time A) as [|a L IHL]; cbn [app] in *; inversion S2; subst; [assumption|]. constructor; [|auto]. apply Forall_app in H2. destruct H2 as [Q1 Q2]. inversion Q2; subst. apply Forall_app. auto.
    + assert (FEWh : few ns h) by (destruct FEW as [L J]; split; [exact L|]; intros y x K; apply J; apply in_or_app; auto).
      assert (UM : usable h m).
      { split; [exact PM1|]. split; [apply I|]. unfold proper in PM1. unfold unknown in UK. destruct (m_z m) as [u|o|z|z]; try exact Logic.I. apply Forall_forall. intros ob J. rewrite Forall_forall in PM1. destruct (PM1 _ J) as (_ & _ & R).
        apply (has_known h e _ _ B R). destruct (hasCache (o_gnss ob) (o_sat ob) (caches e)) eqn:HC; [reflexivity|]. exfalso.
        assert (existsb (fun o0 => negb (hasCache (o_gnss o0) (o_sat o0) (caches e))) o = true) by (apply existsb_exists; exists ob; split; [exact J|rewrite HC; reflexivity]). congruence. }
      rewrite OK; [|apply (Forall_impl _ (fun a => usable_fine ns h e a B FEWh)); constructor; assumption]. cbn [bind snd fst].
      destruct (IH e3 h (A ++ [m]) (A1 ++ m :: B1)) as (r & R); try assumption; [| | | |rewrite R; cbn [bind]; eauto].
      * rewrite <- (Permutation_cons_append A m). rewrite PM. apply Permutation_middle.
      * destruct B as (B1' & B2' & B3'). split; [exact B1'|]. rewrite EC, ESa. auto.
      * apply Forall_app in US. destruct US. apply Forall_app. split; [assumption|constructor; assumption].
      * rewrite <- app_assoc. exact SEP.
  - inversion RE as [|? ? RX RE']; subst. destruct (book_eph h e y x B RX) as (e1 & E1 & B1 & Q1 & Q2). rewrite E1. cbn [bind]. apply (IH e1 (h ++ [(y, x)]) A M); try assumption.
    + destruct IV as (AP & Ma & Mb & Mc & Z1 & Z2 & Z3 & Z4). split; [exact AP|]. exists Ma, Mb, Mc. rewrite Q1, Q2. auto.
    + eapply Forall_impl; [|exact US]. intros a. apply usable_more.
    + rewrite <- app_assoc. exact FEW.
Qed.
Lemma book_init : book [] (init t0 x0 u0 : est).
Proof. split; [constructor|]. split; [reflexivity|]. intros k. cbn. split; [contradiction|]. intros (y & x & [] & _). Qed.
Lemma book_add h e m r : book h e -> addMeasurement m e = Some r -> book h (snd r).
Proof.
  intros B AD. unfold EstModel.addMeasurement in AD. destruct (front (states e)); [|discriminate]. cbn [bind] in AD. destruct (tq_lt _ _); [|discriminate]. cbn [bind] in AD. destruct (_ || _); [injection AD as <-; exact B|].
  repeat match type of AD with context [bind ?a _] => destruct a; [|discriminate]; cbn [bind] in AD end. injection AD as <-. exact B.
Qed.
Lemma book_run l : forall h e bs e', book h e -> Forall ranged (received_eph l) -> run l e = Some (bs, e') -> book (h ++ received_eph l) e'.
Proof.
  induction l as [|c l IH]; intros h e bs e' B RE E; cbn [EstModel.run received_eph] in *; [rewrite app_nil_r; injection E as _ <-; exact B|]. destruct c as [m|y x]; cbn [received_eph] in *.
  - destruct (addMeasurement m e) as [r|] eqn:AD; [|discriminate]. cbn [bind] in E. destruct (run l (snd r)) as [[bs1 e2]|] eqn:R; [|discriminate]. cbn [bind fst snd] in E. injection E as _ <-. eapply IH; [eapply book_add; eauto|exact RE|exact R].
  - inversion RE as [|? ? RX RE']; subst. destruct (book_eph h e y x B RX) as (e1 & E1 & B1 & _). rewrite E1 in E. cbn [bind] in E. change ((y, x) :: received_eph l) with ([(y, x)] ++ received_eph l). rewrite app_assoc. eapply IH; eauto.
Qed.

(** over histories *)
Lemma hist_inv l bs e m : run l (init t0 x0 u0) = Some (bs, e) -> Forall (fun m => in_session t0 (m_t m)) (offered l) -> separated (lo0 :: map time (accepted l bs ++ [m])) ->
  exists M, Permutation (accepted l bs) M /\ inv M e /\ clear_of m lo0 M.
Proof.
  intros E SE SEP. assert (SEP1 : separated (lo0 :: map time (accepted l bs))).
  { rewrite map_app in SEP. rewrite app_comm_cons in SEP. apply fop_app in SEP. apply SEP. }
  destruct (run_inv propagate with_pos with_hold t0 T0 x0 u0 l (init t0 x0 u0) bs e [] [] E (inv_init propagate with_pos with_hold t0 x0 u0) (Permutation_refl _) SE SEP1) as (M & PM & IV).
  exists M. split; [exact PM|]. split; [exact IV|]. apply (clear_perm t0 m _ _ PM). apply (separated_clear propagate with_pos with_hold t0 x0 u0 (accepted l bs) m []). exact SEP.
Qed.
Lemma final_in (M : list meas) : forall lo, M <> [] -> exists x, In x M /\ final lo M = time x.
Proof. intros lo NE. destruct (snoc_cases M) as [ -> |(a & z & -> )]; [congruence|]. exists z. split; [apply in_or_app; right; left; reflexivity|]. apply apart_final_in. Qed.
Lemma filter_perm {T} (f : T -> bool) (A B : list T) : Permutation A B -> length (filter f A) = length (filter f B).
Proof. induction 1 as [|x A B _ IH|x y A|A B C _ IH1 _ IH2]; cbn [filter]; [reflexivity| | |congruence]; [destruct (f x); cbn [length]; congruence|]. destruct (f x), (f y); reflexivity. Qed.
Lemma told_known h (e : est) (m : meas) : book h e -> proper m -> told h m -> unknown (m_z m) (caches e) = false.
Proof.
  intros B PR K. unfold unknown, proper, told in *. destruct (m_z m) as [u|l|z|z]; try reflexivity. destruct (existsb _ l) eqn:X1; [exfalso|reflexivity]. apply existsb_exists in X1. destruct X1 as (o & I & Q).
  rewrite Forall_forall in PR, K. destruct (PR _ I) as (_ & _ & R). rewrite (proj2 (has_known h e _ _ B R) (K _ I)) in Q. discriminate.
Qed.
Lemma hist_recent l bs e m a : run l (init t0 x0 u0) = Some (bs, e) -> session t0 l -> in_session t0 (m_t m) -> Forall ranged (received_eph l) -> proper m -> told (received_eph l) m ->
  separated (lo0 :: map time (accepted l bs ++ [m])) -> In a (accepted l bs) -> time a <= time m -> (forall x, In x (accepted l bs) -> time x - 1000000000 <= time a) ->
  (length (filter (fun x => (time a <? time x)%Z) (accepted l bs)) <= 98)%nat -> forall r, addMeasurement m e = Some r -> fst r = true.
Proof.
  intros E [_ SE] I RG PR K SEP IA LE AGE CNT r AD. destruct (hist_inv l bs e m E SE SEP) as (M & PM & IV & CL).
  refine (recent_accepted propagate with_pos with_hold t0 T0 x0 u0 M e m a IV I CL _ (Permutation_in _ PM IA) LE _ _ r AD).
  - exact (told_known _ e m (book_run l [] _ bs e book_init RG E) PR K).
  - destruct (final_in M lo0) as (x & J & ->); [intros ->; apply Permutation_sym, Permutation_nil in PM; rewrite PM in IA; destruct IA|]. apply AGE. exact (Permutation_in _ (Permutation_sym PM) J).
  - rewrite <- (filter_perm _ _ _ PM). exact CNT.
Qed.
Lemma hist_safe ns l : few ns (received_eph l) -> Forall ranged (received_eph l) -> session t0 l -> Forall proper (offered l) -> separated (lo0 :: map time (offered l)) -> exists r, run l (init t0 x0 u0) = Some r.
Proof.
  intros F R [_ SE] PR SEP. exact (run_safe ns l (init t0 x0 u0) [] [] [] (inv_init propagate with_pos with_hold t0 x0 u0) (Permutation_refl _) book_init (Forall_nil _) F R SE PR SEP).
Qed.
Lemma sane_front (e : est) (m : meas) : sane t0 e -> in_session t0 (m_t m) -> exists f, front (states e) = Some f /\ tq_lt (m_t m) (s_t f) = Some (50000 <? instant (s_t f) - time m).
Proof.
  intros (NE & C & _) I. destruct (states e) as [|f l]; [congruence|]. exists f. split; [reflexivity|]. inversion C; subst. apply (near_tq_lt t0); [exact T0|apply near_session; exact I|assumption].
Qed.
Lemma hist_stale l bs e m f : run l (init t0 x0 u0) = Some (bs, e) -> session t0 l -> in_session t0 (m_t m) -> front (states e) = Some f -> 50000 < instant (s_t f) - time m -> addMeasurement m e = Some (false, e).
Proof.
  intros E [_ SE] I F L. pose proof (run_sane propagate with_pos with_hold t0 T0 l _ bs e E (sane_init t0 T0 x0 u0) SE) as SA. destruct (sane_front e m SA I) as (f' & F' & Q).
  unfold EstModel.addMeasurement. rewrite F'. cbn [bind]. rewrite Q. cbn [bind]. rewrite F in F'. injection F' as <-. rewrite (proj2 (Z.ltb_lt _ _) L). reflexivity.
Qed.
Lemma hist_unknown l bs e m os o : run l (init t0 x0 u0) = Some (bs, e) -> session t0 l -> in_session t0 (m_t m) -> Forall ranged (received_eph l) -> m_z m = Bundle os -> In o os -> 0 <= o_sat o < 256 ->
  ~ known_to (received_eph l) (o_gnss o) (o_sat o) -> addMeasurement m e = Some (false, e).
Proof.
  intros E [_ SE] I RG Z1 J R NK. pose proof (run_sane propagate with_pos with_hold t0 T0 l _ bs e E (sane_init t0 T0 x0 u0) SE) as SA. destruct (sane_front e m SA I) as (f' & F' & Q).
  unfold EstModel.addMeasurement. rewrite F'. cbn [bind]. rewrite Q. cbn [bind]. assert (UK : unknown (m_z m) (caches e) = true).
  { rewrite Z1. apply existsb_exists. exists o. split; [exact J|]. destruct (hasCache (o_gnss o) (o_sat o) (caches e)) eqn:HC; [|reflexivity]. exfalso. apply NK. exact (proj1 (has_known _ e _ _ (book_run l [] _ bs e book_init RG E) R) HC). }
  rewrite UK, orb_true_r. reflexivity.
Qed.
Lemma hist_unchanged l bs e m e' : run l (init t0 x0 u0) = Some (bs, e) -> session t0 l -> in_session t0 (m_t m) -> addMeasurement m e = Some (false, e') -> e' = e.
Proof.
  intros E [_ SE] I AD. pose proof (run_sane propagate with_pos with_hold t0 T0 l _ bs e E (sane_init t0 T0 x0 u0) SE) as SA.
  exact (proj1 (add_inv propagate with_pos with_hold t0 T0 m e false e' AD SA I) eq_refl).
Qed.
Lemma hist_usable ns l bs e g n : run l (init t0 x0 u0) = Some (bs, e) -> Forall ranged (received_eph l) -> few ns (received_eph l) -> 0 <= n < 256 -> known_to (received_eph l) g n ->
  hasCache g n (caches e) = true /\ exists s, getSat g n (sats e) = Some s.
Proof.
  intros E RG (LN & IN) R K. pose proof (book_run l [] _ bs e book_init RG E) as B. split; [exact (proj2 (has_known _ e _ _ B R) K)|].
  destruct K as (y & x & J & <- & <-). destruct B as (F & RM & _). exact (manager_all (received_eph l) (sats e) y (ns y) (genuine_all _ F) RM (fun x0 => IN y x0) (LN y) x J).
Qed.
End Session.
End Est.
