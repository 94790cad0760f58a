From Coq Require Import ZArith List Bool Arith Lia Sorted.
From Verif Require Import UtcTimeModel UtcTimeSpec SatModel SatSpec SatProofs LoadModel LoadSpec.
Import ListNotations.
Local Open Scope Z_scope.

Section P.
Context {D : Type}.
Notation eph := (eph D).
Notation satellite := (satellite D).
Notation sats := (sats D).
Notation record := (record D).
Notation gsim := (gsim D).
Notation world := (world D).

Definition of_no (n : Z) (es : list eph) : list eph := filter (fun e => sat_no e =? n) es.
Definition full (y : system) (es : list eph) (n : Z) : satellite := mkSat (sys_id y) n (alm (of_no n es)).
(** the map after a history *)
Definition inv (y : system) (es : list eph) (m : sats) : Prop :=
  StronglySorted Z.lt (map fst m) /\ (forall n s, In (n, s) m -> s = full y es n) /\ forall n, In n (map fst m) <-> exists e, In e es /\ sat_no e = n.

Lemma mem_ok n (m : sats) : mem n m = true <-> In n (map fst m).
Proof.
  unfold mem. rewrite existsb_exists, in_map_iff. split; intros (x & A & B).
  - apply Z.eqb_eq in B. exists x. split; assumption.
  - exists x. split; [exact B|]. apply Z.eqb_eq. exact A.
Qed.
Lemma emplace_in n s (m : sats) x : In x (emplace n s m) <-> x = (n, s) \/ In x m.
Proof.
  induction m as [|[k z] r IH]; cbn [emplace In]; [split; intros [H|H]; auto; contradiction|].
  destruct (n <? k); cbn [In]; [split; intros [H|H]; auto|]. rewrite IH. tauto.
Qed.
Lemma emplace_keys n s (m : sats) k : In k (map fst (emplace n s m)) <-> k = n \/ In k (map fst m).
Proof.
  rewrite !in_map_iff. split.
  - intros (x & E & I). apply emplace_in in I. destruct I as [-> |I]; [left; symmetry; exact E|right; exists x; auto].
  - intros [-> |(x & E & I)]; [exists (n, s); split; [reflexivity|apply emplace_in; auto]|exists x; split; [exact E|apply emplace_in; auto]].
Qed.
Lemma emplace_sorted n s (m : sats) : StronglySorted Z.lt (map fst m) -> ~ In n (map fst m) -> StronglySorted Z.lt (map fst (emplace n s m)).
Proof.
  induction m as [|[k z] r IH]; intros S N; [repeat constructor|]. cbn [emplace]. pose proof S as S0. cbn [map fst] in S. apply StronglySorted_inv in S. destruct S as [S F].
  destruct (Z.ltb_spec n k) as [L|L].
  - cbn [map fst] in *. constructor; [exact S0|]. constructor; [exact L|]. eapply Forall_impl; [|exact F]. intros a Ha. cbv beta in *. lia.
  - cbn [map fst In] in *. constructor; [apply IH; tauto|]. apply Forall_forall. intros a Ha. apply emplace_keys in Ha. rewrite Forall_forall in F. destruct Ha as [-> |Ha]; [lia|auto].
Qed.
Lemma at_add_ok n (e : eph) (m : sats) x x' : StronglySorted Z.lt (map fst m) -> In (n, x) m -> addEph e x = Some x' ->
  exists m', at_add n e m = Some m' /\ map fst m' = map fst m /\ forall k s, In (k, s) m' -> (k = n /\ s = x') \/ (k <> n /\ In (k, s) m).
Proof.
  intros S I A. induction m as [|[k z] r IH]; [destruct I|]. cbn [at_add]. cbn [map fst] in S. apply StronglySorted_inv in S. destruct S as [S F]. rewrite Forall_forall in F.
  destruct (Z.eqb_spec k n) as [-> |N].
  - assert (z = x) as ->.
    { destruct I as [I|I]; [congruence|]. exfalso. apply (Z.lt_irrefl n). apply F. apply in_map_iff. exists (n, x). auto. }
    rewrite A. cbn [bind]. eexists. split; [reflexivity|]. split; [reflexivity|]. intros k s [J|J]; [injection J as <- <-; auto|]. right. split; [|right; exact J].
    intros ->. apply (Z.lt_irrefl n). apply F. apply in_map_iff. exists (n, s). auto.
  - destruct I as [I|I]; [congruence|]. destruct (IH S I) as (m' & E & K & J). rewrite E. cbn [bind]. eexists. split; [reflexivity|]. split; [cbn [map fst]; congruence|].
    intros j s [H|H]; [injection H as <- <-; right; split; [exact N|left; reflexivity]|]. destruct (J j s H) as [?|[? ?]]; [auto|]. right. split; [assumption|right; assumption].
Qed.
Lemma of_no_snoc n es (e : eph) : of_no n (es ++ [e]) = of_no n es ++ (if sat_no e =? n then [e] else []).
Proof. unfold of_no. rewrite filter_app. cbn [filter]. destruct (sat_no e =? n); reflexivity. Qed.
Lemma of_no_none n (es : list eph) : (forall e, In e es -> sat_no e <> n) -> of_no n es = [].
Proof.
  intros H. induction es as [|e es IH]; [reflexivity|]. unfold of_no in *. cbn [filter]. rewrite (proj2 (Z.eqb_neq _ _)) by (apply H; left; reflexivity). apply IH. intros; apply H; right; assumption.
Qed.
Lemma addEph_full y es (e : eph) : gnss e = sys_id y -> addEph e (full y es (sat_no e)) = Some (full y (es ++ [e]) (sat_no e)).
Proof.
  intros G. unfold addEph, full. cbn [s_gnss s_no almanac]. rewrite G, !Z.eqb_refl. cbn [andb]. rewrite of_no_snoc, Z.eqb_refl, alm_snoc. reflexivity.
Qed.
Lemma full_other y es (e : eph) n : n <> sat_no e -> full y (es ++ [e]) n = full y es n.
Proof. intros N. unfold full. rewrite of_no_snoc, (proj2 (Z.eqb_neq _ _)) by congruence. rewrite app_nil_r. reflexivity. Qed.

Lemma ephCb_ok y es (e : eph) m : inv y es m -> gnss e = sys_id y -> exists m', ephCb y e m = Some m' /\ inv y (es ++ [e]) m'.
Proof.
  intros (S & C & K) G. unfold ephCb.
  assert (exists m1, (if mem (sat_no e) m then Some m else do s <- newSat y (gnss e) (sat_no e); Some (emplace (sat_no e) s m)) = Some m1 /\
    StronglySorted Z.lt (map fst m1) /\ (forall n s, In (n, s) m1 -> s = full y es n) /\ (forall n, In n (map fst m1) <-> n = sat_no e \/ In n (map fst m))) as (m1 & E1 & S1 & C1 & K1).
  { destruct (mem (sat_no e) m) eqn:M.
    - exists m. apply mem_ok in M. split; [reflexivity|]. split; [exact S|]. split; [exact C|]. intros n. split; [auto|]. intros [-> |?]; assumption.
    - assert (~ In (sat_no e) (map fst m)) as N by (intros I; apply mem_ok in I; congruence).
      unfold newSat. rewrite G, Z.eqb_refl. cbn [bind]. eexists. split; [reflexivity|]. split; [apply emplace_sorted; assumption|]. split.
      + intros n s I. apply emplace_in in I. destruct I as [I|I]; [|auto]. injection I as -> ->. unfold full. rewrite of_no_none; [reflexivity|].
        intros x Ix En. apply N. apply K. exists x. auto.
      + intros n. apply emplace_keys. }
  rewrite E1. cbn [bind].
  assert (In (sat_no e, full y es (sat_no e)) m1) as I1.
  { assert (In (sat_no e) (map fst m1)) as I by (apply K1; auto). apply in_map_iff in I. destruct I as ([n s] & En & I). cbn [fst] in En. subst n. rewrite <- (C1 _ _ I). exact I. }
  destruct (at_add_ok (sat_no e) e m1 _ _ S1 I1 (addEph_full y es e G)) as (m' & E & Km & J). exists m'. split; [exact E|]. split; [rewrite Km; exact S1|]. split.
  - intros n s I. destruct (J n s I) as [[-> ->]|[N I']]; [reflexivity|]. rewrite full_other by exact N. apply C1, I'.
  - intros n. rewrite Km, K1, K. split.
    + intros [-> |(x & Ix & <-)]; [exists e; split; [apply in_or_app; right; left; reflexivity|reflexivity]|exists x; split; [apply in_or_app; left; exact Ix|reflexivity]].
    + intros (x & Ix & <-). apply in_app_or in Ix. destruct Ix as [Ix|[<- |[]]]; [right; exists x; auto|left; reflexivity].
Qed.

Definition queue (y : system) (s : gsim) : list (utc * eph) := match y with GPS => q_gps s | Glonass => q_glo s | Galileo => q_gal s end.
Definition holds (l : list record) (s : gsim) : Prop := forall y, inv y (map snd (logged_of y l)) (sats_of y s) /\ queue y s = logged_of y l.
Lemma logged_snoc y (l : list record) z p : logged_of y (l ++ [(z, p)]) = logged_of y l ++ (if sys_eqb z y then [p] else []).
Proof. unfold logged_of. rewrite filter_app, map_app. cbn [filter fst]. destruct (sys_eqb z y); reflexivity. Qed.
Lemma callback_ok l s r : holds l s -> well_formed r -> exists s', callback r s = Some s' /\ holds (l ++ [r]) s' /\ satellites_ s' = satellites_ s /\ offsets s' = offsets s.
Proof.
  intros H W. destruct r as [y [t e]]. destruct W as [G _]. cbn [fst snd] in G. assert (gnss e = sys_id y) as G' by (rewrite G; destruct y; reflexivity).
  destruct (ephCb_ok y _ e _ (proj1 (H y)) G') as (m' & E & I).
  destruct y; unfold callback; cbn [sats_of] in E; rewrite E; cbn [bind]; eexists; (split; [reflexivity|]); (split; [|split; reflexivity]);
    intros z; rewrite logged_snoc; destruct z; cbn [sys_eqb sats_of queue m_gps m_glo m_gal q_gps q_glo q_gal]; rewrite ?app_nil_r, ?map_app; cbn [map snd];
    try exact (H GPS); try exact (H Glonass); try exact (H Galileo); split; try exact I.
  - pose proof (proj2 (H GPS)) as Q. cbn [queue] in Q. congruence.
  - pose proof (proj2 (H Glonass)) as Q. cbn [queue] in Q. congruence.
  - pose proof (proj2 (H Galileo)) as Q. cbn [queue] in Q. congruence.
Qed.
Lemma read_ok l : forall h s, holds h s -> Forall well_formed l -> exists s', read_log l s = Some s' /\ holds (h ++ l) s' /\ satellites_ s' = satellites_ s /\ offsets s' = offsets s.
Proof.
  induction l as [|r l IH]; intros h s H F; [exists s; rewrite app_nil_r; cbn [read_log]; auto|]. inversion_clear F as [|? ? W Fl].
  destruct (callback_ok h s r H W) as (s1 & E1 & H1 & P1 & O1). cbn [read_log]. rewrite E1. cbn [bind]. destruct (IH _ _ H1 Fl) as (s2 & E2 & H2 & P2 & O2).
  exists s2. split; [exact E2|]. split; [rewrite <- app_assoc in H2; exact H2|]. split; congruence.
Qed.
Lemma holds_blank : holds [] blank.
Proof.
  intros y. split; [|destruct y; reflexivity]. destruct y; cbn [sats_of blank m_gps m_glo m_gal logged_of filter map]; (split; [constructor|]; split; [intros n s []|intros n; split; [intros []|intros (e & [] & _)]]).
Qed.

(** pointers *)
Definition keys (s : gsim) (y : system) : list Z := map fst (sats_of y s).
Definition ptrs (me : nat) (s : gsim) : list ptr :=
  getSatPointers me GPS (m_gps s) ++ getSatPointers me Glonass (m_glo s) ++ getSatPointers me Galileo (m_gal s).
Lemma ptrs_keys me s : ptrs me s = map (pair me) (map (pair GPS) (keys s GPS) ++ map (pair Glonass) (keys s Glonass) ++ map (pair Galileo) (keys s Galileo)).
Proof. unfold ptrs, getSatPointers, keys. cbn [sats_of]. rewrite !map_app, !map_map. reflexivity. Qed.
Lemma lookup_ok n (m : sats) : StronglySorted Z.lt (map fst m) -> In n (map fst m) -> exists x, lookup n m = Some x /\ In (n, x) m.
Proof.
  intros _. induction m as [|[k z] r IH]; intros I; [destruct I|]. cbn [lookup]. destruct (Z.eqb_spec k n) as [-> |N]; [exists z; split; [reflexivity|left; reflexivity]|].
  destruct I as [I|I]; [cbn [fst] in I; contradiction|]. destruct (IH I) as (x & E & J). exists x. split; [exact E|right; exact J].
Qed.
Lemma complete_full (l : list record) y n : Forall well_formed l -> complete l y n (full y (map snd (logged_of y l)) n).
Proof.
  intros F. unfold complete, full. cbn [s_gnss s_no almanac]. split; [destruct y; reflexivity|]. split; [reflexivity|].
  assert (Forall (fun x : eph => normal (toe x)) (of_no n (map snd (logged_of y l)))) as N.
  { apply Forall_forall. intros e I. unfold of_no in I. apply filter_In in I. destruct I as [I _]. apply in_map_iff in I. destruct I as (p & <- & I). unfold logged_of in I.
    apply in_map_iff in I. destruct I as (r & <- & I). apply filter_In in I. rewrite Forall_forall in F. apply (F r (proj1 I)). }
  destruct (alm_ok _ N) as (S & _ & I). split; [apply srt_increasing, S|exact I].
Qed.
Lemma in_logged (l : list record) y n : (exists e, In e (map snd (logged_of y l)) /\ sat_no e = n) <-> exists t e, In (y, (t, e)) l /\ sat_no e = n.
Proof.
  split.
  - intros (e & I & N). apply in_map_iff in I. destruct I as ([t e'] & E & I). cbn [snd] in E. subst e'. unfold logged_of in I. apply in_map_iff in I. destruct I as ([z p] & E & I).
    cbn [snd] in E. subst p. apply filter_In in I. destruct I as [I Q]. apply sys_eqb_ok in Q. cbn [fst] in Q. subst z. exists t, e. auto.
  - intros (t & e & I & N). exists e. split; [|exact N]. apply in_map_iff. exists (t, e). split; [reflexivity|]. unfold logged_of. apply in_map_iff. exists (y, (t, e)). split; [reflexivity|].
    apply filter_In. split; [exact I|]. apply sys_eqb_ok. reflexivity.
Qed.
Lemma numbers_ok l s y : holds l s -> numbers_in l y (keys s y).
Proof. intros H. destruct (H y) as ((S & _ & K) & _). split; [exact S|]. intros n. unfold keys. rewrite K. apply in_logged. Qed.
Lemma observe_ok (w : world) me s l : object w me = Some s -> holds l s -> Forall well_formed l -> forall ps n, (length ps <= n)%nat ->
  (forall y k, In (y, k) ps -> In k (keys s y)) -> exists os, observe w (map (pair me) ps) n = Some os /\ Forall2 (fun k o => complete l (fst k) (snd k) o) ps os.
Proof.
  intros O H F. induction ps as [|[y k] ps IH]; intros n L I; [exists []; destruct n; split; constructor|]. destruct n as [|n]; [cbn in L; lia|]. cbn [map observe]. unfold deref. cbn [fst snd].
  rewrite O. cbn [bind]. destruct (H y) as ((S & C & _) & _). destruct (lookup_ok k (sats_of y s) S (I y k (or_introl eq_refl))) as (x & E & J). rewrite E. cbn [bind].
  destruct (IH n) as (os & Eo & Fo); [cbn in L; lia|intros; apply I; right; assumption|]. rewrite Eo. cbn [bind]. eexists. split; [reflexivity|]. constructor; [|exact Fo].
  cbn [fst snd]. rewrite (C k x J). apply complete_full, F.
Qed.
(** an object as constructed *)
Definition built (l : list record) (i : nat) (s : gsim) : Prop := holds l s /\ satellites_ s = ptrs i s /\ offsets s = length (satellites_ s).
Lemma ptrs_len i s : length (ptrs i s) = (length (m_gps s) + length (m_glo s) + length (m_gal s))%nat.
Proof. unfold ptrs, getSatPointers. rewrite !app_length, !map_length. lia. Qed.
Lemma construct_ok i l : Forall well_formed l -> l <> [] -> exists s, construct i l = Some s /\ built l i s.
Proof.
  intros F N. unfold construct, load. destruct (read_ok l [] blank holds_blank F) as (s & E & H & P & O). rewrite E. cbn [bind app] in *. rewrite P. cbn [blank satellites_ app].
  change (getSatPointers i GPS (m_gps s) ++ getSatPointers i Glonass (m_glo s) ++ getSatPointers i Galileo (m_gal s)) with (ptrs i s).
  assert (0 < length (ptrs i s))%nat as L.
  { destruct l as [|[y [t e]] l]; [contradiction|]. pose proof (numbers_ok _ s y H) as [_ K]. specialize (K (sat_no e)). destruct K as [_ K].
    assert (In (sat_no e) (keys s y)) as I by (apply K; exists t, e; split; [left; reflexivity|reflexivity]). rewrite ptrs_len. unfold keys in I.
    destruct y; cbn [sats_of] in I; [destruct (m_gps s)|destruct (m_glo s)|destruct (m_gal s)]; cbn [map In length] in *; try contradiction; lia. }
  rewrite (proj2 (Nat.ltb_lt _ _) L). cbn [bind]. eexists. split; [reflexivity|]. split; [exact H|]. split; reflexivity.
Qed.
Lemma construct_nil i : construct i (@nil record) = None. Proof. reflexivity. Qed.
Lemma built_sample (w : world) i j s s' l : object w j = Some s' -> satellites_ s' = satellites_ s -> offsets s' = offsets s -> object w i = Some s -> built l i s -> Forall well_formed l ->
  exists os, sample w j = Some os /\ all_once l os.
Proof.
  intros Oj Sj Fj Oi (H & P & O) F. unfold sample. rewrite Oj. cbn [bind]. rewrite Sj, Fj, O, P, ptrs_keys.
  destruct (observe_ok w i s l Oi H F (map (pair GPS) (keys s GPS) ++ map (pair Glonass) (keys s Glonass) ++ map (pair Galileo) (keys s Galileo)) (length (ptrs i s))) as (os & E & A).
  - rewrite ptrs_keys, map_length. lia.
  - intros y k I. repeat (apply in_app_or in I; destruct I as [I|I]); apply in_map_iff in I; destruct I as (x & Ex & I); injection Ex as <- <-; exact I.
  - rewrite ptrs_keys in E. exists os. split; [exact E|]. exists (keys s GPS), (keys s Glonass), (keys s Galileo). repeat (split; [apply numbers_ok, H|]). exact A.
Qed.

(** histories *)
Lemma object_app (w : world) s i : (i < length w)%nat -> object (w ++ [s]) i = object w i.
Proof. intros L. unfold object. rewrite nth_error_app1 by exact L. reflexivity. Qed.
Lemma object_lt (w : world) i s : object w i = Some s -> (i < length w)%nat.
Proof. unfold object. destruct (nth_error w i) eqn:E; [|discriminate]. intros _. apply nth_error_Some. congruence. Qed.
Lemma object_last (w : world) s : object (w ++ [s]) (length w) = s.
Proof. unfold object. rewrite nth_error_app2 by lia. rewrite Nat.sub_diag. cbn. destruct s; reflexivity. Qed.
Lemma put_length (w : world) i s : (i < length w)%nat -> length (put w i s) = length w.
Proof. intros L. unfold put. rewrite app_length, firstn_length. cbn [length]. rewrite skipn_length. lia. Qed.
Lemma put_same (w : world) i s : (i < length w)%nat -> object (put w i s) i = s.
Proof.
  intros L. unfold object, put. rewrite nth_error_app2 by (rewrite firstn_length; lia). rewrite firstn_length. replace (i - Nat.min i (length w))%nat with 0%nat by lia. cbn. destruct s; reflexivity.
Qed.
Lemma nth_skipn A (l : list A) : forall k j, nth_error (skipn k l) j = nth_error l (k + j).
Proof. induction l as [|x l IH]; intros [|k] j; cbn [skipn]; try reflexivity; [destruct j; reflexivity|]. rewrite IH. reflexivity. Qed.
Lemma nth_firstn A (l : list A) : forall k j, (j < k)%nat -> nth_error (firstn k l) j = nth_error l j.
Proof. induction l as [|x l IH]; intros [|k] j L; try lia; [reflexivity|]. destruct j; [reflexivity|]. cbn. apply IH. lia. Qed.
Lemma put_other (w : world) i j s : (i < length w)%nat -> i <> j -> object (put w i s) j = object w j.
Proof.
  intros L N. unfold object, put. destruct (Nat.lt_ge_cases j i) as [J|J].
  - rewrite nth_error_app1 by (rewrite firstn_length; lia). rewrite nth_firstn by exact J. reflexivity.
  - rewrite nth_error_app2 by (rewrite firstn_length; lia). rewrite firstn_length. replace (j - Nat.min i (length w))%nat with (S (j - S i)) by lia. cbn [nth_error].
    rewrite nth_skipn. replace (S i + (j - S i))%nat with j by lia. reflexivity.
Qed.
Lemma origins_snoc (l : list (op D)) o : origins (l ++ [o]) = origin_step o (origins l).
Proof. unfold origins. rewrite fold_left_app. reflexivity. Qed.
Lemma run_snoc (l : list (op D)) o : forall w, run (l ++ [o]) w = (do w' <- run l w; exec o w').
Proof.
  induction l as [|a l IH]; intros w; cbn [run app]; [cbn [bind]; destruct (exec o w); reflexivity|]. destruct (exec a w) as [w'|]; cbn [bind]; [apply IH|reflexivity].
Qed.
Lemma nil_dec A (l : list A) : {l = []} + {l <> []}. Proof. destruct l; [left; reflexivity|right; discriminate]. Qed.
Lemma ends_lt (ops : list (op D)) : forall w o, run ops [] = Some w -> In (End o) ops -> (o < length w)%nat.
Proof.
  induction ops as [|a ops IH] using rev_ind; intros w o R I; [destruct I|]. rewrite run_snoc in R. destruct (run ops []) as [w0|] eqn:R0; [|discriminate R]. cbn [bind] in R.
  assert (length w0 <= length w)%nat as G.
  { destruct a as [l|i l|i|i]; cbn [exec] in R.
    - destruct (construct (length w0) l); [|discriminate R]. injection R as <-. rewrite app_length. lia.
    - destruct (object w0 i) as [s|] eqn:O; [|discriminate R]. cbn [bind] in R. destruct (load i l s); [|discriminate R]. injection R as <-. rewrite put_length by (eapply object_lt; exact O). lia.
    - destruct (object w0 i); [|discriminate R]. injection R as <-. rewrite app_length. lia.
    - destruct (object w0 i) as [s|] eqn:O; [|discriminate R]. injection R as <-. rewrite put_length by (eapply object_lt; exact O). lia. }
  apply in_app_or in I. destruct I as [I|[-> |[]]]; [specialize (IH w0 o eq_refl I); lia|]. cbn [exec] in R. destruct (object w0 o) as [s|] eqn:O; [|discriminate R]. pose proof (object_lt _ _ _ O). lia.
Qed.
Definition good (ops : list (op D)) (w : world) : Prop :=
  length (origins ops) = length w /\
  (forall j, (j < length w)%nat -> (object w j = None <-> In (End j) ops)) /\
  (forall j i l, nth_error (origins ops) j = Some (i, l) -> nth_error (origins ops) i = Some (i, l) /\ Forall well_formed l /\ l <> []) /\
  (forall j i l s, nth_error (origins ops) j = Some (i, l) -> object w j = Some s -> built l i s /\ (forall s', object w i = Some s' -> s' = s)).
Lemma nth_snoc A (l : list A) x j y : nth_error (l ++ [x]) j = Some y -> nth_error l j = Some y \/ (j = length l /\ y = x).
Proof.
  intros H. destruct (Nat.lt_ge_cases j (length l)) as [L|L]; [rewrite nth_error_app1 in H by exact L; auto|]. rewrite nth_error_app2 in H by exact L. right.
  destruct (j - length l)%nat as [|n] eqn:E; [cbn in H; split; [lia|congruence]|]. destruct n; discriminate H.
Qed.
Lemma nth_lt A (l : list A) j y : nth_error l j = Some y -> (j < length l)%nat.
Proof. intros H. apply nth_error_Some. congruence. Qed.
Lemma run_good ops : (forall l, In (New l) ops -> Forall well_formed l) -> (forall i l, ~ In (Load i l) ops) -> forall w, run ops [] = Some w -> good ops w.
Proof.
  induction ops as [|o ops IH] using rev_ind; intros W NL w R.
  - injection R as <-. split; [reflexivity|]. split; [intros j L; cbn in L; lia|]. split; intros j i l; [intros H; destruct j; discriminate H|intros s H; destruct j; discriminate H].
  - rewrite run_snoc in R. destruct (run ops []) as [w0|] eqn:R0; [|discriminate R]. cbn [bind] in R.
    destruct (IH (fun l I => W l (in_or_app _ _ _ (or_introl I))) (fun i l I => NL i l (in_or_app _ _ _ (or_introl I))) w0 eq_refl) as (Ln & En & Rt & Bt). clear IH.
    unfold good. rewrite origins_snoc.
    destruct o as [l|i l|i|i].
    + cbn [exec] in R. assert (In (New l) (ops ++ [New l])) as WI by (apply in_or_app; right; left; reflexivity). specialize (W l WI). clear WI.
      destruct (nil_dec _ l) as [N|N]; [subst l; rewrite construct_nil in R; discriminate R|].
      destruct (construct_ok (length w0) l W N) as (s & C & B). rewrite C in R. cbn [bind] in R. injection R as <-. cbn [origin_step]. rewrite !app_length. cbn [length].
      split; [lia|]. split.
      * intros j L. destruct (Nat.eq_dec j (length w0)) as [-> |NE].
        -- rewrite object_last. split; [discriminate|]. intros I. apply in_app_or in I. destruct I as [I|[I|[]]]; [|discriminate I]. exfalso.
           assert (forall o, In (End o) ops -> (o < length w0)%nat) as X by (intros o; exact (ends_lt ops w0 o R0)). specialize (X _ I). lia.
        -- rewrite object_app by lia. rewrite En by lia. rewrite in_app_iff. cbn [In]. split; [auto|]. intros [I|[I|[]]]; [exact I|discriminate I].
      * split.
        -- intros j i l' H. apply nth_snoc in H. destruct H as [H|[-> E]].
           ++ destruct (Rt j i l' H) as (A & B' & C'). split; [rewrite nth_error_app1 by (eapply nth_lt; exact A); exact A|auto].
           ++ injection E as -> ->. rewrite nth_error_app2 by lia. rewrite Nat.sub_diag. cbn. auto.
        -- intros j i l' s' H O. apply nth_snoc in H. destruct H as [H|[-> E]].
           ++ pose proof (nth_lt _ _ _ _ H) as Lj. rewrite Ln in Lj. rewrite object_app in O by exact Lj. destruct (Bt j i l' s' H O) as (A & U). split; [exact A|].
              destruct (Rt j i l' H) as (Hi & _). pose proof (nth_lt _ _ _ _ Hi) as Li. rewrite Ln in Li. rewrite object_app by exact Li. exact U.
           ++ injection E as -> ->. rewrite Ln in *. rewrite object_last in O. injection O as <-. split; [exact B|]. rewrite object_last. congruence.
    + exfalso. apply (NL i l). apply in_or_app. right. left. reflexivity.
    + cbn [exec] in R. destruct (object w0 i) as [s|] eqn:O; [|discriminate R]. cbn [bind] in R. injection R as <-. cbn [origin_step].
      pose proof (object_lt _ _ _ O) as L. destruct (nth_error (origins ops) i) as [[i0 l0]|] eqn:Ho; [|apply nth_error_None in Ho; lia]. rewrite !app_length. cbn [length].
      destruct (Rt i i0 l0 Ho) as (R1 & R2 & R3). destruct (Bt i i0 l0 s Ho O) as (B & U). pose proof (nth_lt _ _ _ _ R1) as L0. rewrite Ln in L0.
      split; [lia|]. split.
      * intros j Lj. destruct (Nat.eq_dec j (length w0)) as [-> |NE].
        -- rewrite object_last. split; [discriminate|]. intros I. apply in_app_or in I. destruct I as [I|[I|[]]]; [|discriminate I]. pose proof (ends_lt ops w0 _ R0 I). lia.
        -- rewrite object_app by lia. rewrite En by lia. rewrite in_app_iff. cbn [In]. split; [auto|]. intros [I|[I|[]]]; [exact I|discriminate I].
      * split.
        -- intros j i' l' H. apply nth_snoc in H. destruct H as [H|[-> E]].
           ++ destruct (Rt j i' l' H) as (A & B' & C'). split; [rewrite nth_error_app1 by (eapply nth_lt; exact A); exact A|auto].
           ++ injection E as -> ->. rewrite nth_error_app1 by lia. auto.
        -- intros j i' l' s' H O'. apply nth_snoc in H. destruct H as [H|[-> E]].
           ++ pose proof (nth_lt _ _ _ _ H) as Lj. rewrite Ln in Lj. rewrite object_app in O' by exact Lj. destruct (Bt j i' l' s' H O') as (A & V). split; [exact A|].
              destruct (Rt j i' l' H) as (Hi & _). pose proof (nth_lt _ _ _ _ Hi) as Li. rewrite Ln in Li. rewrite object_app by exact Li. exact V.
           ++ injection E as -> ->. rewrite Ln in O'. rewrite object_last in O'. injection O' as <-. split; [exact B|]. rewrite object_app by exact L0. exact U.
    + cbn [exec] in R. destruct (object w0 i) as [s|] eqn:O; [|discriminate R]. cbn [bind] in R. injection R as <-. cbn [origin_step]. pose proof (object_lt _ _ _ O) as L.
      rewrite put_length by exact L. split; [exact Ln|]. split; [|split; [exact Rt|]].
      * intros j Lj. rewrite in_app_iff. cbn [In]. destruct (Nat.eq_dec i j) as [<- |NE]; [rewrite put_same by exact L; split; auto|]. rewrite put_other by assumption. rewrite En by exact Lj.
        split; [auto|]. intros [I|[I|[]]]; [exact I|congruence].
      * intros j i' l' s' H O'. destruct (Nat.eq_dec i j) as [<- |NE]; [rewrite put_same in O' by exact L; discriminate O'|]. rewrite put_other in O' by assumption.
        destruct (Bt j i' l' s' H O') as (A & V). split; [exact A|]. intros s2 O2. destruct (Nat.eq_dec i i') as [<- |NE2]; [rewrite put_same in O2 by exact L; discriminate O2|].
        rewrite put_other in O2 by assumption. apply V, O2.
Qed.
Lemma history_sample (ops : list (op D)) (w : world) j i (l : list record) : (forall l, In (New l) ops -> Forall well_formed l) -> (forall i l, ~ In (Load i l) ops) -> run ops [] = Some w ->
  nth_error (origins ops) j = Some (i, l) -> ~ In (End j) ops ->
  (~ In (End i) ops -> exists os, sample w j = Some os /\ all_once l os) /\ (In (End i) ops -> sample w j = None).
Proof.
  intros W NL R H E. destruct (run_good ops W NL w R) as (Ln & En & Rt & Bt). destruct (Rt j i l H) as (Hi & F & N). pose proof (nth_lt _ _ _ _ H) as Lj. pose proof (nth_lt _ _ _ _ Hi) as Li.
  rewrite Ln in Lj, Li. destruct (object w j) as [s|] eqn:O; [|exfalso; apply E, En; assumption]. destruct (Bt j i l s H O) as (B & U). split.
  - intros Ei. destruct (object w i) as [s'|] eqn:Oi; [|exfalso; apply Ei, En; assumption]. assert (s' = s) as -> by (apply U; reflexivity).
    apply (built_sample w i j s s l); auto.
  - intros Ei. apply En in Ei; [|exact Li]. unfold sample. rewrite O. cbn [bind]. destruct B as (Hs & P & Of). rewrite Of, P.
    assert (exists p ps, ptrs i s = p :: ps) as (p & ps & Ep).
    { destruct (ptrs i s) as [|p ps] eqn:Ep; [|eauto]. exfalso. destruct l as [|[y [t e]] l]; [contradiction|]. pose proof (numbers_ok _ s y Hs) as [_ K].
      assert (In (sat_no e) (keys s y)) as I by (apply K; exists t, e; split; [left; reflexivity|reflexivity]). pose proof (ptrs_len i s) as PL. rewrite Ep in PL. cbn [length] in PL. unfold keys in I.
      destruct y; cbn [sats_of] in I; [destruct (m_gps s)|destruct (m_glo s)|destruct (m_gal s)]; cbn [map In length] in *; try contradiction; lia. }
    assert (fst p = i) as Fp.
    { assert (In p (ptrs i s)) as I by (rewrite Ep; left; reflexivity). rewrite ptrs_keys in I. apply in_map_iff in I. destruct I as (x & <- & _). reflexivity. }
    rewrite Ep. cbn [length observe]. unfold deref. rewrite Fp, Ei. reflexivity.
Qed.

(** loading again *)
Lemma observe_len (w : world) ps : forall n os, observe w ps n = Some os -> (length ps <= n)%nat.
Proof.
  induction ps as [|p ps IH]; intros n os H; [cbn; lia|]. destruct n as [|n]; [discriminate H|]. cbn [observe] in H. destruct (deref w p); [|discriminate H]. cbn [bind] in H.
  destruct (observe w ps n) as [os'|] eqn:E; [|discriminate H]. specialize (IH n os' E). cbn [length]. lia.
Qed.
Lemma load_again i (l : list record) s l2 s2 : Forall well_formed l -> Forall well_formed l2 -> l <> [] -> construct i l = Some s -> load i l2 s = Some s2 ->
  (forall y n x, lookup n (sats_of y s2) = Some x -> complete (l ++ l2) y n x) /\ forall w, object w i = Some s2 -> sample w i = None.
Proof.
  intros F F2 N C L. destruct (construct_ok i l F N) as (s' & C' & H & P & O). assert (s' = s) as -> by congruence. unfold load in L.
  destruct (read_ok l2 l s H F2) as (s3 & E3 & H3 & P3 & O3). rewrite E3 in L. cbn [bind] in L.
  change (getSatPointers i GPS (m_gps s3) ++ getSatPointers i Glonass (m_glo s3) ++ getSatPointers i Galileo (m_gal s3)) with (ptrs i s3) in L.
  destruct (0 <? length (satellites_ s3 ++ ptrs i s3))%nat; [|discriminate L]. injection L as <-. split.
  - intros y n x E. destruct (H3 y) as ((S & K & Q) & _). assert (In (n, x) (sats_of y s3)) as I.
    { destruct y; cbn [sats_of m_gps m_glo m_gal] in *; revert E; clear; intros E;
        match type of E with lookup n ?m = _ => induction m as [|[k z] r IH]; cbn [lookup] in E; [discriminate E|]; destruct (Z.eqb_spec k n); [injection E as <-; subst; left; reflexivity|right; auto] end. }
    rewrite (K n x I). apply complete_full. apply Forall_app. auto.
  - intros w Ow. unfold sample. rewrite Ow. cbn [bind satellites_ offsets]. destruct (observe w _ _) as [os|] eqn:E; [|reflexivity]. exfalso. apply observe_len in E. rewrite app_length in E.
    rewrite P3, O3, O in E. assert (0 < length (ptrs i s3))%nat; [|lia]. destruct l as [|[y [t e]] l]; [contradiction|]. pose proof (numbers_ok _ s3 y H3) as [_ K].
    assert (In (sat_no e) (keys s3 y)) as I by (apply K; exists t, e; split; [left; reflexivity|reflexivity]). rewrite ptrs_len. unfold keys in I.
    destruct y; cbn [sats_of] in I; [destruct (m_gps s3)|destruct (m_glo s3)|destruct (m_gal s3)]; cbn [map In length] in *; try contradiction; lia.
Qed.

(** an ephemeris of another constellation *)
Lemma at_add_bad n (e : eph) (m : sats) : (forall k x, In (k, x) m -> addEph e x = None) -> at_add n e m = None.
Proof.
  induction m as [|[k z] r IH]; intros H; [reflexivity|]. cbn [at_add]. rewrite (H k z (or_introl eq_refl)). cbn [bind]. rewrite IH by (intros; eapply H; right; eassumption). destruct (k =? n); reflexivity.
Qed.
Lemma mismatch i y t (e : eph) a b : Forall well_formed a -> gnss e <> number y -> @construct D i (a ++ (y, (t, e)) :: b) = None.
Proof.
  intros F G. destruct (read_ok a [] blank holds_blank F) as (s & E & H & _). cbn [app] in H.
  assert (gnss e <> sys_id y) as G' by (destruct y; exact G).
  assert (ephCb y e (sats_of y s) = None) as X.
  { unfold ephCb. destruct (mem (sat_no e) (sats_of y s)); cbn [bind].
    - apply at_add_bad. intros k x I. destruct (H y) as ((_ & C & _) & _). rewrite (C k x I). unfold addEph, full. cbn [s_gnss]. rewrite (proj2 (Z.eqb_neq _ _) G'). reflexivity.
    - unfold newSat. rewrite (proj2 (Z.eqb_neq _ _) G'). reflexivity. }
  assert (forall (l : list record) s0 s1, read_log l s0 = Some s1 -> forall r, read_log (l ++ r) s0 = read_log r s1) as A.
  { clear. induction l as [|x l IH]; intros s0 s1 E r; [injection E as ->; reflexivity|]. cbn [app read_log] in *. destruct (callback x s0) as [s2|]; [|discriminate E]. cbn [bind] in *. apply IH, E. }
  unfold construct, load. rewrite (A _ _ _ E). cbn [read_log]. destruct y; cbn [callback sats_of] in *; rewrite X; reflexivity.
Qed.
Lemma construct_queue i (l : list record) s : Forall well_formed l -> construct i l = Some s -> q_gps s = logged_of GPS l /\ q_glo s = logged_of Glonass l /\ q_gal s = logged_of Galileo l.
Proof.
  intros F C. destruct (nil_dec _ l) as [-> |N]; [discriminate C|]. destruct (construct_ok i l F N) as (s' & C' & H & _). assert (s' = s) as -> by congruence.
  exact (conj (proj2 (H GPS)) (conj (proj2 (H Glonass)) (proj2 (H Galileo)))).
Qed.
End P.
