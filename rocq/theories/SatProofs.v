From Coq Require Import ZArith List Bool Arith Lia Sorted.
From Verif Require Import Bytes UtcTimeModel UtcTimeSpec UtcTimeProofs CircularBufferModel CircularBufferSpec CircularBufferProofs SatModel SatSpec.
Import ListNotations.
Local Open Scope Z_scope.

Section P.
Context {D : Type}.
Notation eph := (eph D).
Notation satellite := (satellite D).
Notation srt := (StronglySorted (fun x y : eph => when x < when y)).

Lemma srt_increasing l : srt l -> increasing l.
Proof.
  intros S a x b y c ->. induction a as [|z a IH].
  - cbn [app] in S. apply StronglySorted_inv in S. destruct S as [_ F]. rewrite Forall_forall in F. apply F. apply in_or_app. right. left. reflexivity.
  - cbn [app] in S. apply StronglySorted_inv in S. apply IH, S.
Qed.

(** ** the almanac *)
Lemma insert_in e (l : list eph) : normal (toe e) -> Forall (fun x => normal (toe x)) l -> srt l ->
  forall x, In x (insert_eph e l) <-> x = e \/ (In x l /\ when x <> when e).
Proof.
  intros Ne. induction l as [|y l IH]; intros F S x; cbn [insert_eph].
  - cbn [In]. split; [intros [E|[]]; left; congruence|intros [E|[[] _]]; left; congruence].
  - inversion_clear F as [|? ? Ny Fl]. apply StronglySorted_inv in S. destruct S as [S Fy].
    rewrite eq_ok by assumption. rewrite gt_ok by assumption. fold (when y). fold (when e).
    rewrite Forall_forall in Fy. destruct (Z.eqb_spec (when y) (when e)) as [E|E].
    + cbn [In]. split.
      * intros [X|X]; [left; congruence|]. right. split; [right; exact X|]. specialize (Fy _ X). lia.
      * intros [X|[[X|X] N]]; [left; congruence|subst; contradiction|right; exact X].
    + destruct (when y >? when e) eqn:G.
      * cbn [In]. rewrite Z.gtb_ltb, Z.ltb_lt in G. split.
        -- intros [X|[X|X]]; [left; congruence|right; subst; split; [left; reflexivity|lia]|right; split; [right; exact X|specialize (Fy _ X); lia]].
        -- intros [X|[X N]]; [left; congruence|right; exact X].
      * cbn [In]. rewrite (IH Fl S x). split.
        -- intros [X|[X|[X N]]]; [subst; right; split; [left; reflexivity|exact E]|left; exact X|right; split; [right; exact X|exact N]].
        -- intros [X|[[X|X] N]]; [right; left; exact X|left; exact X|right; right; split; assumption].
Qed.
Lemma insert_normal e (l : list eph) : normal (toe e) -> Forall (fun x => normal (toe x)) l -> Forall (fun x => normal (toe x)) (insert_eph e l).
Proof.
  intros Ne. induction l as [|y l IH]; intros F; cbn [insert_eph]; [constructor; [exact Ne|constructor]|].
  inversion_clear F. destruct (eq _ _); [constructor; assumption|]. destruct (gt _ _); repeat (constructor; try assumption). apply IH. assumption.
Qed.
Lemma insert_srt e (l : list eph) : normal (toe e) -> Forall (fun x => normal (toe x)) l -> srt l -> srt (insert_eph e l).
Proof.
  intros Ne. induction l as [|y l IH]; intros F S; cbn [insert_eph]; [constructor; constructor|].
  inversion_clear F as [|? ? Ny Fl]. pose proof S as S0. apply StronglySorted_inv in S. destruct S as [S Fy].
  rewrite eq_ok by assumption. rewrite gt_ok by assumption. fold (when y). fold (when e).
  destruct (Z.eqb_spec (when y) (when e)) as [E|E].
  - constructor; [exact S|]. rewrite <- E. exact Fy.
  - destruct (when y >? when e) eqn:G.
    + rewrite Z.gtb_ltb, Z.ltb_lt in G. constructor; [exact S0|]. constructor; [exact G|]. eapply Forall_impl; [|exact Fy]. intros z Hz. cbv beta in *. lia.
    + rewrite Z.gtb_ltb, Z.ltb_ge in G. constructor; [apply IH; assumption|]. apply Forall_forall. intros x Hx. apply (insert_in e l Ne Fl S) in Hx. rewrite Forall_forall in Fy.
      destruct Hx as [ -> |[Hx _]]; [lia|apply Fy, Hx].
Qed.

(** the almanac after a history *)
Definition alm (es : list eph) : list eph := fold_left (fun l e => insert_eph e l) es [].
Lemma alm_snoc es e : alm (es ++ [e]) = insert_eph e (alm es).
Proof. unfold alm. rewrite fold_left_app. reflexivity. Qed.
Lemma alm_ok es : Forall (fun x => normal (toe x)) es -> srt (alm es) /\ Forall (fun x => normal (toe x)) (alm es) /\ forall e, In e (alm es) <-> latest_for es e.
Proof.
  induction es as [|x es IH] using rev_ind; intros F.
  - split; [constructor|]. split; [constructor|]. intros e. split; [intros []|]. intros (pre & post & E & _). destruct pre; discriminate E.
  - apply Forall_app in F. destruct F as [F Fx]. inversion_clear Fx as [|? ? Nx _]. destruct (IH F) as (S & A & I). rewrite alm_snoc.
    split; [apply insert_srt; assumption|]. split; [apply insert_normal; assumption|]. intros e. rewrite (insert_in x (alm es) Nx A S e). rewrite I. split.
    + intros [ -> |[(pre & post & E & N) NE]].
      * exists es, []. split; [reflexivity|intros y []].
      * exists pre, (post ++ [x]). split; [rewrite E, <- app_assoc; reflexivity|]. intros y Hy. apply in_app_or in Hy. destruct Hy as [Hy|[<-|[]]]; [apply N, Hy|congruence].
    + intros (pre & post & E & N). destruct post as [|p post] using rev_ind.
      * apply app_inj_tail in E. left. symmetry. apply E.
      * clear IHpost. right. rewrite app_comm_cons, app_assoc in E. apply app_inj_tail in E. destruct E as [E ->]. split.
        -- exists pre, post. split; [exact E|]. intros y Hy. apply N. apply in_or_app. left. exact Hy.
        -- intros X. apply (N p); [apply in_or_app; right; left; reflexivity|congruence].
Qed.
Lemma adds_alm g n es : Forall (fun e : eph => gnss e = g /\ sat_no e = n) es -> forall l, adds es (mkSat g n l) = Some (mkSat g n (fold_left (fun l e => insert_eph e l) es l)).
Proof.
  induction es as [|e es IH]; intros F l; [reflexivity|]. inversion_clear F as [|? ? [G N] Fe]. cbn [adds fold_left]. unfold addEph. cbn [s_gnss s_no almanac].
  rewrite G, N, !Z.eqb_refl. cbn [andb bind]. apply IH, Fe.
Qed.
Lemma adds_ok es g n : Forall (fun e : eph => gnss e = g /\ sat_no e = n /\ normal (toe e)) es ->
  exists s, adds es (mkSat g n []) = Some s /\ s_gnss s = g /\ s_no s = n /\ increasing (almanac s) /\ forall e, In e (almanac s) <-> latest_for es e.
Proof.
  intros F. exists (mkSat g n (alm es)). split; [apply adds_alm; eapply Forall_impl; [|exact F]; intros; cbv beta in *; tauto|]. split; [reflexivity|]. split; [reflexivity|]. cbn [almanac].
  destruct (alm_ok es) as (S & _ & I); [eapply Forall_impl; [|exact F]; intros; cbv beta in *; tauto|]. split; [apply srt_increasing, S|exact I].
Qed.

(** ** the buffers *)
Notation rep := (rep MAX_SAT).
Notation pos := (pos MAX_SAT).
Lemma two : (2 <= MAX_SAT)%nat. Proof. unfold MAX_SAT. lia. Qed.

Lemma find_slot_ok n (b : cb satellite) l : rep b l -> forall fuel i, (i <= length l)%nat -> (length l - i < fuel)%nat ->
  match find_slot fuel n b (pos (head b) i) with
  | Some p => exists j s, (i <= j)%nat /\ p = pos (head b) j /\ nth_error l j = Some s /\ s_no s = n
  | None => forall s, In s (skipn i l) -> s_no s <> n
  end.
Proof.
  intros R. pose proof R as (HL & HH & HS & HT & HC). pose proof two as T2.
  induction fuel as [|f IH]; intros i Hi Hf; [lia|]. cbn [find_slot]. rewrite HT.
  destruct (Nat.eqb_spec (pos (head b) i) (pos (head b) (length l))) as [E|E].
  - apply (pos_inj MAX_SAT T2) in E; try lia. subst i. rewrite skipn_all. intros s [].
  - assert (i < length l)%nat. { destruct (Nat.eq_dec i (length l)); [subst; congruence|lia]. }
    rewrite HC by assumption. destruct (nth_error l i) as [s|] eqn:En; [|apply nth_error_None in En; lia].
    assert (K : skipn i l = s :: skipn (S i) l). { clear -En. revert l En. induction i; intros [|y l] En; cbn in *; try discriminate; [congruence|auto]. }
    destruct (Z.eqb_spec (s_no s) n) as [Q|Q].
    + exists i, s. split; [lia|]. split; [reflexivity|]. split; assumption.
    + rewrite (incr_pos MAX_SAT T2) by lia. specialize (IH (S i) ltac:(lia) ltac:(lia)). destruct (find_slot f n b (pos (head b) (S i))) as [p|].
      * destruct IH as (j & s' & A & B). exists j, s'. split; [lia|exact B].
      * rewrite K. intros s' [<-|X]; [exact Q|apply IH, X].
Qed.
Lemma find_ok n (b : cb satellite) l : rep b l ->
  match find n b with
  | Some p => exists j s, p = pos (head b) j /\ nth_error l j = Some s /\ s_no s = n
  | None => forall s, In s l -> s_no s <> n
  end.
Proof.
  intros R. pose proof R as (HL & HH & HS & HT & HC). unfold find.
  pose proof (find_slot_ok n b l R MAX_SAT 0%nat ltac:(lia) ltac:(lia)) as X. rewrite (pos_0 MAX_SAT two (head b) HH) in X. destruct (find_slot MAX_SAT n b (head b)) as [p|].
  - destruct X as (j & s & _ & X). exists j, s. exact X.
  - exact X.
Qed.
Lemma nth_split_at (l : list satellite) j s : nth_error l j = Some s -> l = firstn j l ++ s :: skipn (S j) l.
Proof. revert l. induction j; intros [|y l] E; cbn in *; try discriminate; [congruence|]. f_equal. apply IHj, E. Qed.
Lemma change_ok (b : cb satellite) l j s (e : eph) s' : rep b l -> nth_error l j = Some s -> addEph e s = Some s' ->
  exists b', change (pos (head b) j) e b = Some b' /\ rep b' (firstn j l ++ s' :: skipn (S j) l).
Proof.
  intros R En A. assert (J : (j < length l)%nat) by (apply nth_error_Some; congruence). pose proof R as (HL & HH & HS & HT & HC).
  unfold change. rewrite HC, En, A by exact J. cbn [bind]. eexists. split; [reflexivity|].
  pose proof (rep_set_at MAX_SAT two b l j s' R J) as X. unfold set_at, it_plus in X. rewrite (mod_pos' MAX_SAT two) in X by lia. exact X.
Qed.

Definition sat_of (y : system) (p : Z * list eph) : satellite := mkSat (sys_id y) (fst p) (alm (snd p)).
Lemma addEph_of y n es e : gnss e = sys_id y -> sat_no e = n -> addEph e (sat_of y (n, es)) = Some (sat_of y (n, es ++ [e])).
Proof. intros G N. unfold addEph, sat_of. cbn [s_gnss s_no almanac fst snd]. rewrite G, N, !Z.eqb_refl. cbn [andb]. rewrite alm_snoc. reflexivity. Qed.

Lemma emplace_add (y : system) b1 (r1 : list (Z * list eph)) (e : eph) : rep b1 (map (sat_of y) r1) -> (length r1 < 29)%nat -> gnss e = sys_id y ->
  exists b', change (it_minus MAX_SAT (tail (emplace_back MAX_SAT b1 (mkSat (sys_id y) (sat_no e) []))) 1) e (emplace_back MAX_SAT b1 (mkSat (sys_id y) (sat_no e) [])) = Some b' /\
    rep b' (map (sat_of y) (r1 ++ [(sat_no e, [e])])).
Proof.
  intros R Lr G. assert (F : full MAX_SAT b1 = false).
  { rewrite (rep_full MAX_SAT two b1 _ R). apply Nat.eqb_neq. rewrite map_length. unfold MAX_SAT. lia. }
  assert (R2 : rep (emplace_back MAX_SAT b1 (mkSat (sys_id y) (sat_no e) [])) (map (sat_of y) (r1 ++ [(sat_no e, [])]))).
  { rewrite map_app. unfold emplace_back. rewrite F. apply (rep_put_tail MAX_SAT two); [exact R|rewrite map_length; unfold MAX_SAT; lia|reflexivity]. }
  set (b2 := emplace_back _ _ _) in *. clearbody b2. pose proof R2 as (HL & HH & HS & HT & HC). rewrite map_length, app_length in *. cbn [length] in *.
  assert (P : it_minus MAX_SAT (tail b2) 1 = pos (head b2) (length r1)).
  { rewrite (it_minus_1 MAX_SAT two) by (rewrite HT; apply (pos_lt MAX_SAT two); lia). rewrite HT. replace (length r1 + 1)%nat with (S (length r1)) by lia. apply (decr_pos MAX_SAT two); [exact HH|lia]. }
  rewrite P. assert (En : nth_error (map (sat_of y) (r1 ++ [(sat_no e, [])])) (length r1) = Some (sat_of y (sat_no e, []))).
  { rewrite map_app, nth_error_app2 by (rewrite map_length; lia). rewrite map_length, Nat.sub_diag. reflexivity. }
  destruct (change_ok b2 _ (length r1) _ e _ R2 En (addEph_of y (sat_no e) [] e G eq_refl)) as (b' & C & R'). exists b'. split; [exact C|].
  cbn [app] in R'. replace (map (sat_of y) (r1 ++ [(sat_no e, [e])])) with (firstn (length r1) (map (sat_of y) (r1 ++ [(sat_no e, [])])) ++ sat_of y (sat_no e, [e]) :: skipn (S (length r1)) (map (sat_of y) (r1 ++ [(sat_no e, [])]))); [exact R'|].
  rewrite !map_app. replace (length r1) with (length (map (sat_of y) r1)) by apply map_length.
  rewrite firstn_app, firstn_all, Nat.sub_diag, firstn_O, app_nil_r. rewrite skipn_all2; [reflexivity|]. rewrite app_length. cbn. lia.
Qed.

Lemma add_ok y (e : eph) (b : cb satellite) r : rep b (map (sat_of y) r) -> gnss e = sys_id y ->
  exists b' r', add y e b = Some b' /\ received 29 r e r' /\ rep b' (map (sat_of y) r').
Proof.
  intros R G. unfold add. pose proof (find_ok (sat_no e) b _ R) as F. destruct (find (sat_no e) b) as [p|].
  - destruct F as (j & s & -> & En & Ns). assert (exists n es, nth_error r j = Some (n, es) /\ s = sat_of y (n, es)) as (n & es & Er & ->).
    { rewrite nth_error_map in En. destruct (nth_error r j) as [[n es]|]; [|discriminate]. exists n, es. split; [reflexivity|]. cbn [option_map] in En. congruence. }
    cbn [sat_of s_no fst] in Ns. subst n. destruct (change_ok b _ j _ e _ R En (addEph_of y _ es e G eq_refl)) as (b' & C & R').
    exists b', (firstn j r ++ (sat_no e, es ++ [e]) :: skipn (S j) r). split; [exact C|]. split.
    + left. exists (firstn j r), es, (skipn (S j) r). split; [|reflexivity]. clear -Er. revert r Er. induction j; intros [|z r] Er; cbn in *; try discriminate; [congruence|]. f_equal. apply IHj, Er.
    + rewrite map_app. cbn [map]. rewrite firstn_map, skipn_map in R'. exact R'.
  - assert (NK : ~ known (sat_no e) r).
    { intros K. unfold known in K. apply in_map_iff in K. destruct K as ([n es] & Q & I). cbn [fst] in Q. apply (F (sat_of y (n, es))); [apply in_map, I|exact Q]. }
    unfold newSat. rewrite G, Z.eqb_refl. cbn [bind]. rewrite (rep_full MAX_SAT two b _ R), map_length. pose proof R as (_ & _ & HS & _). rewrite map_length in HS. unfold MAX_SAT in HS.
    destruct (Nat.eqb_spec (length r) (MAX_SAT - 1)) as [E|E].
    + destruct r as [|x rest]; [discriminate E|]. cbn [map length] in *. apply (rep_pop_front MAX_SAT two) in R.
      destruct (emplace_add y _ rest e R) as (b' & C & R'); [unfold MAX_SAT in E; lia|exact G|]. exists b', (rest ++ [(sat_no e, [e])]). split; [exact C|]. split; [|exact R'].
      right. right. split; [exact NK|]. exists x, rest. split; [reflexivity|]. split; [unfold MAX_SAT in E; lia|reflexivity].
    + assert (E1 : (length r < 29)%nat) by (unfold MAX_SAT in E; lia). destruct (emplace_add y _ r e R E1 G) as (b' & C & R'). exists b', (r ++ [(sat_no e, [e])]). split; [exact C|]. split; [|exact R'].
      right. left. split; [exact NK|]. split; [exact E1|reflexivity].
Qed.

(** ** the manager *)
Definition holds (h : list (system * eph)) (m : manager D) : Prop :=
  forall y, exists r, roster_after 29 (of_system y h) r /\ rep (buffer y m) (map (sat_of y) r).
Lemma sys_eqb_ok x y : sys_eqb x y = true <-> x = y.
Proof. destruct x, y; cbn; split; congruence. Qed.
Lemma of_system_snoc y (h : list (system * eph)) y' e : of_system y (h ++ [(y', e)]) = of_system y h ++ (if sys_eqb y' y then [e] else []).
Proof. unfold of_system. rewrite filter_app, map_app. cbn [filter fst]. destruct (sys_eqb y' y); reflexivity. Qed.
Lemma buffer_set y (e : eph) m m' : ephCb y e m = Some m' <-> exists b, add y e (buffer y m) = Some b /\ buffer y m' = b /\ (forall z, z <> y -> buffer z m' = buffer z m).
Proof.
  destruct m as [a b c], m' as [a' b' c']. destruct y; cbn [ephCb buffer gps glo gal].
  - destruct (add GPS e a) as [x|]; cbn [bind]; split.
    + intros E. exists x. split; [reflexivity|]. split; [congruence|]. intros z Hz. destruct z; cbn; congruence.
    + intros (x0 & E & E2 & O). pose proof (O Glonass ltac:(discriminate)) as O1. pose proof (O Galileo ltac:(discriminate)) as O2. cbn in O1, O2. congruence.
    + discriminate.
    + intros (x0 & E & _). discriminate.
  - destruct (add Glonass e b) as [x|]; cbn [bind]; split.
    + intros E. exists x. split; [reflexivity|]. split; [congruence|]. intros z Hz. destruct z; cbn; congruence.
    + intros (x0 & E & E2 & O). pose proof (O GPS ltac:(discriminate)) as O1. pose proof (O Galileo ltac:(discriminate)) as O2. cbn in O1, O2. congruence.
    + discriminate.
    + intros (x0 & E & _). discriminate.
  - destruct (add Galileo e c) as [x|]; cbn [bind]; split.
    + intros E. exists x. split; [reflexivity|]. split; [congruence|]. intros z Hz. destruct z; cbn; congruence.
    + intros (x0 & E & E2 & O). pose proof (O GPS ltac:(discriminate)) as O1. pose proof (O Glonass ltac:(discriminate)) as O2. cbn in O1, O2. congruence.
    + discriminate.
    + intros (x0 & E & _). discriminate.
Qed.
Lemma ephCb_ok h m y e : holds h m -> gnss e = sys_id y -> exists m', ephCb y e m = Some m' /\ holds (h ++ [(y, e)]) m'.
Proof.
  intros H G. destruct (H y) as (r & RA & R). destruct (add_ok y e _ r R G) as (b' & r' & A & RC & R').
  assert (X : exists m', ephCb y e m = Some m').
  { destruct y; cbn [ephCb buffer] in *; rewrite A; cbn [bind]; eexists; reflexivity. }
  destruct X as (m' & X). exists m'. split; [exact X|]. apply buffer_set in X. destruct X as (b & A2 & B & O). intros z. rewrite of_system_snoc.
  destruct (sys_eqb y z) eqn:Q.
  - apply sys_eqb_ok in Q. subst z. exists r'. split; [econstructor; eassumption|]. rewrite B. congruence.
  - rewrite app_nil_r. rewrite O by (intros ->; rewrite (proj2 (sys_eqb_ok y y) eq_refl) in Q; discriminate). apply H.
Qed.
Lemma holds0 : holds [] (@manager0 D).
Proof. intros y. exists []. split; [constructor|]. cbn [map]. destruct y; apply (rep_init MAX_SAT two). Qed.
Lemma run_mgr_ok l : forall h m, holds h m -> Forall genuine l -> exists m', run_mgr l m = Some m' /\ holds (h ++ l) m'.
Proof.
  induction l as [|[y e] l IH]; intros h m H F; cbn [run_mgr].
  - exists m. rewrite app_nil_r. split; [reflexivity|exact H].
  - inversion_clear F as [|? ? [G N] Fl]. cbn [fst snd] in *. destruct (ephCb_ok h m y e H G) as (m1 & E & H1). rewrite E. cbn [bind].
    destruct (IH _ m1 H1 Fl) as (m' & E' & H'). exists m'. split; [exact E'|]. rewrite <- app_assoc in H'. exact H'.
Qed.

Lemma received_fst cap r (e : eph) r' : received cap r e r' ->
  (known (sat_no e) r /\ map fst r' = map fst r) \/ (~ known (sat_no e) r /\ (length r < cap)%nat /\ map fst r' = map fst r ++ [sat_no e]) \/
  (~ known (sat_no e) r /\ length r = cap /\ map fst r' = tl (map fst r) ++ [sat_no e]).
Proof.
  intros [(a & es & b & -> & ->)|[(K & L & ->)|(K & x & rest & -> & L & ->)]].
  - left. split; [|rewrite !map_app; reflexivity]. unfold known. rewrite map_app. apply in_or_app. right. left. reflexivity.
  - right. left. split; [exact K|]. split; [exact L|]. rewrite map_app. reflexivity.
  - right. right. split; [exact K|]. split; [cbn; lia|]. rewrite map_app. reflexivity.
Qed.
Lemma NoDup_snoc (l : list Z) x : NoDup l -> ~ In x l -> NoDup (l ++ [x]).
Proof. intros N I. apply NoDup_rev in N. rewrite <- (rev_involutive (l ++ [x])). apply NoDup_rev. rewrite rev_app_distr. cbn. constructor; [|exact N]. intros X. apply I, in_rev, X. Qed.
Lemma roster_ok cap (h : list eph) r : roster_after cap h r -> NoDup (map fst r) /\ ((length r <= cap)%nat).
Proof.
  intros H. induction H as [|h r e r' H [N L] RC]; [split; [constructor|cbn; lia]|].
  assert (Q : length r' = length (map fst r')) by (rewrite map_length; reflexivity). assert (Q0 : length r = length (map fst r)) by (rewrite map_length; reflexivity).
  destruct (received_fst cap r e r' RC) as [(K & E)|[(K & L1 & E)|(K & L1 & E)]]; rewrite Q, E.
  - split; [exact N|lia].
  - split; [apply NoDup_snoc; assumption|]. rewrite app_length. cbn. lia.
  - unfold known in K. rewrite Q0 in L1. destruct (map fst r) as [|x l]; cbn [tl app] in *.
    + cbn in L1. subst cap. exfalso. destruct RC as [(a & es & b & E1 & _)|[(_ & L2 & _)|(_ & x & rest & _ & L2 & _)]]; [|lia|lia]. subst r. destruct a; cbn in L; lia.
    + split; [apply NoDup_snoc; [apply NoDup_cons_iff in N; apply N|intros I; apply K; right; exact I]|]. rewrite app_length. cbn in *. lia.
Qed.
Lemma held_ok y (m : manager D) r : rep (buffer y m) (map (sat_of y) r) -> held y m = map fst r.
Proof.
  intros R. unfold held. rewrite (rep_contents MAX_SAT two _ _ R). clear R. induction r as [|[n es] r IH]; [reflexivity|]. cbn [map flat_map]. rewrite IH. reflexivity.
Qed.
Lemma getSat_sys y n (m : manager D) : getSat (sys_id y) n m = match find n (buffer y m) with Some p => content (get (buffer y m) p) | None => None end.
Proof. destruct y; reflexivity. Qed.
Lemma getSat_ok y n (m : manager D) r : rep (buffer y m) (map (sat_of y) r) -> NoDup (map fst r) ->
  forall s, getSat (sys_id y) n m = Some s <-> exists es, In (n, es) r /\ s = sat_of y (n, es).
Proof.
  intros R N s. rewrite getSat_sys. pose proof (find_ok n _ _ R) as F. destruct (find n (buffer y m)) as [p|].
  - destruct F as (j & s0 & -> & En & Ns). pose proof R as (HL & HH & HS & HT & HC). rewrite HC by (apply nth_error_Some; congruence). rewrite En.
    assert (exists es, In (n, es) r /\ s0 = sat_of y (n, es)) as (es & I & E0).
    { rewrite nth_error_map in En. destruct (nth_error r j) as [[n' es]|] eqn:Er; [|discriminate]. cbn [option_map] in En. exists es. injection En as En. subst s0. cbn [sat_of s_no fst] in Ns. subst n'. split; [eapply nth_error_In; exact Er|reflexivity]. }
    split.
    + intros E. exists es. split; [exact I|congruence].
    + intros (es' & I' & ->). f_equal. rewrite E0. f_equal. clear -N I I'. induction r as [|[a b] r IH]; [destruct I|]. cbn [map fst] in N. apply NoDup_cons_iff in N. destruct N as [NI N].
      destruct I as [I|I], I' as [I'|I']; [congruence| | |auto].
      * exfalso. apply NI. apply in_map_iff. exists (n, es'). split; [cbn; congruence|exact I'].
      * exfalso. apply NI. apply in_map_iff. exists (n, es). split; [cbn; congruence|exact I].
  - split; [discriminate|]. intros (es & I & _). exfalso. apply (F (sat_of y (n, es))); [apply in_map, I|reflexivity].
Qed.

Lemma in_of_system y l (e : eph) : In e (of_system y l) <-> In (y, e) l.
Proof.
  unfold of_system. rewrite in_map_iff. split.
  - intros ([y' e'] & E & I). cbn [snd] in E. subst e'. apply filter_In in I. destruct I as [I Q]. cbn [fst] in Q. apply sys_eqb_ok in Q. subst y'. exact I.
  - intros I. exists (y, e). split; [reflexivity|]. apply filter_In. split; [exact I|]. apply sys_eqb_ok. reflexivity.
Qed.
(** every ephemeris in the roster was received, from that satellite; each has one *)
Lemma roster_received cap (h : list eph) r : roster_after cap h r -> forall n es, In (n, es) r -> es <> [] /\ forall e, In e es -> In e h /\ sat_no e = n.
Proof.
  intros H. induction H as [|h r e r' H IH RC]; [intros n es []|].
  assert (W : forall n es, In (n, es) r -> es <> [] /\ forall x, In x es -> In x (h ++ [e]) /\ sat_no x = n).
  { intros n es I. destruct (IH n es I) as [A B]. split; [exact A|]. intros x X. destruct (B x X). split; [apply in_or_app; left; assumption|assumption]. }
  assert (O : forall n es, (n, es) = (sat_no e, [e]) -> es <> [] /\ forall x, In x es -> In x (h ++ [e]) /\ sat_no x = n).
  { intros n es E. assert (n = sat_no e) by congruence. assert (es = [e]) by congruence. subst. split; [discriminate|]. intros x [<-|[]]. split; [apply in_or_app; right; left; reflexivity|reflexivity]. }
  intros n es I. destruct RC as [(a & es0 & b & -> & ->)|[(K & L & ->)|(K & x & rest & -> & L & ->)]].
  - apply in_app_or in I. destruct I as [I|[I|I]].
    + apply W. apply in_or_app. left. exact I.
    + assert (n = sat_no e) by congruence. assert (es = es0 ++ [e]) by congruence. subst. destruct (W (sat_no e) es0) as [A B]; [apply in_or_app; right; left; reflexivity|].
      split; [destruct es0; discriminate|]. intros x X. apply in_app_or in X. destruct X as [X|[<-|[]]]; [apply B, X|]. split; [apply in_or_app; right; left; reflexivity|reflexivity].
    + apply W. apply in_or_app. right. right. exact I.
  - apply in_app_or in I. destruct I as [I|[I|[]]]; [apply W, I|apply O; congruence].
  - apply in_app_or in I. destruct I as [I|[I|[]]]; [apply W; right; exact I|apply O; congruence].
Qed.

Lemma manager_ok l : Forall genuine l -> exists m, run_mgr l (@manager0 D) = Some m /\
  forall y, exists r, roster_after 29 (of_system y l) r /\ held y m = map fst r /\
    forall n s, getSat (sys_id y) n m = Some s <-> exists es, In (n, es) r /\ adds es (mkSat (sys_id y) n []) = Some s.
Proof.
  intros F. destruct (run_mgr_ok l [] _ holds0 F) as (m & E & H). exists m. split; [exact E|]. intros y. destruct (H y) as (r & RA & R). exists r. split; [exact RA|].
  split; [apply held_ok, R|]. intros n s. rewrite (getSat_ok y n m r R (proj1 (roster_ok _ _ _ RA)) s).
  assert (A : forall es, In (n, es) r -> adds es (mkSat (sys_id y) n []) = Some (sat_of y (n, es))).
  { intros es I. apply adds_alm. apply Forall_forall. intros e Ie. destruct (roster_received _ _ _ RA n es I) as [_ B]. destruct (B e Ie) as [B1 B2]. cbn [app] in B1.
    apply in_of_system in B1. rewrite Forall_forall in F. destruct (F _ B1) as [G _]. split; [exact G|exact B2]. }
  split; intros (es & I & Q); exists es; (split; [exact I|]); rewrite (A es I) in *; congruence.
Qed.
Lemma manager_held l m : Forall genuine l -> run_mgr l (@manager0 D) = Some m -> forall y,
  NoDup (held y m) /\ (length (held y m) <= 29)%nat /\ forall n, In n (held y m) <-> exists s, getSat (sys_id y) n m = Some s.
Proof.
  intros F E y. destruct (run_mgr_ok l [] _ holds0 F) as (m' & E' & H). assert (m' = m) by congruence. subst m'. destruct (H y) as (r & RA & R).
  rewrite (held_ok y m r R). destruct (roster_ok _ _ _ RA) as [N L]. split; [exact N|]. split; [rewrite map_length; exact L|]. intros n. split.
  - intros I. apply in_map_iff in I. destruct I as ([n' es] & Q & I). cbn [fst] in Q. subst n'. eexists. apply (getSat_ok y n m r R N). exists es. split; [exact I|reflexivity].
  - intros (s & G). apply (getSat_ok y n m r R N) in G. destruct G as (es & I & _). apply in_map_iff. exists (n, es). split; [reflexivity|exact I].
Qed.
Lemma run_mgr_app l1 : forall l2 m m1, run_mgr l1 m = Some m1 -> run_mgr (l1 ++ l2) m = @run_mgr D l2 m1.
Proof. induction l1 as [|[y e] l1 IH]; intros l2 m m1 E; cbn [run_mgr app] in *; [congruence|]. destruct (ephCb y e m) as [m'|]; [|discriminate]. cbn [bind] in *. apply IH, E. Qed.
Lemma manager_step l m y e : Forall genuine (l ++ [(y, e)]) -> run_mgr l (@manager0 D) = Some m ->
  exists m', run_mgr (l ++ [(y, e)]) (@manager0 D) = Some m' /\
  (forall z, z <> y -> held z m' = held z m /\ forall n, getSat (sys_id z) n m' = getSat (sys_id z) n m) /\
  (In (sat_no e) (held y m) -> held y m' = held y m) /\
  (~ In (sat_no e) (held y m) -> (length (held y m) < 29)%nat -> held y m' = held y m ++ [sat_no e]) /\
  (~ In (sat_no e) (held y m) -> length (held y m) = 29%nat -> held y m' = tl (held y m) ++ [sat_no e]).
Proof.
  intros F E. apply Forall_app in F. destruct F as [F Fe]. inversion_clear Fe as [|? ? [G Ne] _]. cbn [fst snd] in *.
  destruct (run_mgr_ok l [] _ holds0 F) as (m0 & E0 & H). assert (m0 = m) by congruence. subst m0. cbn [app] in H.
  destruct (H y) as (r & RA & R). destruct (add_ok y e _ r R G) as (b' & r' & A & RC & R'). destruct (ephCb_ok l m y e H G) as (m' & C & H').
  exists m'. split; [rewrite (run_mgr_app l _ _ m E); cbn [run_mgr]; rewrite C; reflexivity|]. apply buffer_set in C. destruct C as (b & A2 & B & O).
  assert (b = b') by congruence. subst b'. rewrite <- B in R'. rewrite (held_ok y m r R), (held_ok y m' r' R').
  split. { intros z Hz. split; [unfold held; rewrite (O z Hz); reflexivity|]. intros n. rewrite !getSat_sys, (O z Hz). reflexivity. }
  destruct (received_fst _ _ _ _ RC) as [(K & Q)|[(K & L & Q)|(K & L & Q)]]; unfold known in K; rewrite Q, map_length.
  - split; [reflexivity|]. split; intros X; contradiction.
  - split; [contradiction|]. split; [reflexivity|]. intros; lia.
  - split; [contradiction|]. split; [intros; lia|reflexivity].
Qed.

(** nothing is dropped while few satellites are seen *)
Lemma roster_all cap (h : list eph) r (ns : list Z) : roster_after cap h r -> (forall e, In e h -> In (sat_no e) ns) -> (length ns <= cap)%nat -> forall e, In e h -> known (sat_no e) r.
Proof.
  intros H Hn L. induction H as [|h r e0 r' H IH RC]; [intros e []|]. intros e I.
  assert (IH' : forall x, In x h -> known (sat_no x) r) by (apply IH; intros x X; apply Hn, in_or_app; left; exact X). clear IH.
  assert (KI : incl (map fst r) ns).
  { intros n K. apply in_map_iff in K. destruct K as ([n' es] & Q & I2). cbn [fst] in Q. subst n'. destruct (roster_received _ _ _ H n es I2) as [NE B]. destruct es as [|x es]; [contradiction|].
    destruct (B x ltac:(left; reflexivity)) as [B1 <-]. apply Hn, in_or_app. left. exact B1. }
  destruct (roster_ok _ _ _ H) as [ND _]. unfold known in *.
  destruct (received_fst _ _ _ _ RC) as [(K & Q)|[(K & L1 & Q)|(K & L1 & Q)]]; rewrite Q.
  - apply in_app_or in I. destruct I as [I|[<-|[]]]; [apply IH', I|exact K].
  - apply in_or_app. apply in_app_or in I. destruct I as [I|[<-|[]]]; [left; apply IH', I|right; left; reflexivity].
  - exfalso. assert (X : (length (sat_no e0 :: map fst r) <= length ns)%nat).
    { apply NoDup_incl_length; [constructor; assumption|]. intros n [<-|X]; [apply Hn, in_or_app; right; left; reflexivity|apply KI, X]. }
    cbn [length] in X. rewrite map_length in X. lia.
Qed.
Lemma manager_all l m y ns : Forall genuine l -> run_mgr l (@manager0 D) = Some m -> (forall e, In (y, e) l -> In (sat_no e) ns) -> (length ns <= 29)%nat ->
  forall e, In (y, e) l -> exists s, getSat (sys_id y) (sat_no e) m = Some s.
Proof.
  intros F E Hn L e I. destruct (run_mgr_ok l [] _ holds0 F) as (m' & E' & H). assert (m' = m) by congruence. subst m'. cbn [app] in H. destruct (H y) as (r & RA & R).
  assert (K : known (sat_no e) r).
  { apply (roster_all _ _ _ ns RA); [intros x X; apply Hn, in_of_system, X|exact L|apply in_of_system, I]. }
  unfold known in K. apply in_map_iff in K. destruct K as ([n es] & Q & I2). cbn [fst] in Q. subst n. eexists. apply (getSat_ok y _ m r R (proj1 (roster_ok _ _ _ RA))). exists es. split; [exact I2|reflexivity].
Qed.
(** a satellite found has an ephemeris, received and sorted *)
Lemma insert_not_nil e (l : list eph) : insert_eph e l <> [].
Proof. destruct l; cbn [insert_eph]; [discriminate|]. destruct (eq _ _); [discriminate|]. destruct (gt _ _); discriminate. Qed.
Lemma manager_sat l m y n s : Forall genuine l -> run_mgr l (@manager0 D) = Some m -> getSat (sys_id y) n m = Some s ->
  s_gnss s = sys_id y /\ s_no s = n /\ almanac s <> [] /\ increasing (almanac s) /\ forall e, In e (almanac s) -> In (y, e) l /\ sat_no e = n.
Proof.
  intros F E G. destruct (run_mgr_ok l [] _ holds0 F) as (m' & E' & H). assert (m' = m) by congruence. subst m'. cbn [app] in H. destruct (H y) as (r & RA & R).
  apply (getSat_ok y n m r R (proj1 (roster_ok _ _ _ RA))) in G. destruct G as (es & I & ->). destruct (roster_received _ _ _ RA n es I) as [NE B].
  cbn [sat_of s_gnss s_no almanac fst snd]. split; [reflexivity|]. split; [reflexivity|]. split.
  - destruct es as [|e es _] using rev_ind; [contradiction|]. rewrite alm_snoc. apply insert_not_nil.
  - assert (FN : Forall (fun x : eph => normal (toe x)) es).
    { apply Forall_forall. intros e Ie. destruct (B e Ie) as [B1 _]. apply in_of_system in B1. rewrite Forall_forall in F. apply (F _ B1). }
    destruct (alm_ok es FN) as (S & _ & A). split; [apply srt_increasing, S|]. intros e Ie. apply A in Ie. destruct Ie as (pre & post & -> & _).
    destruct (B e) as [B1 B2]; [apply in_or_app; right; left; reflexivity|]. split; [apply in_of_system, B1|exact B2].
Qed.
End P.
