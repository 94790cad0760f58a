(** Proofs about the order in which the estimator keeps measurements. *)
From Coq Require Import ZArith Lia List Bool Sorted.
From Verif Require Import UtcTimeModel UtcTimeSpec UtcTimeProofs Float64 QuantizedModel UtcDoubleModel SatModel SatSpec EstModel EstSpec EstTimeProofs EstProofs EstOrderSpec.
Import ListNotations.
Local Open Scope Z_scope.

Section Order.
Context {X U P H D : Type}.
Variable propagate : X -> b64 -> U -> X.
Variable with_pos : X -> U -> P -> X.
Variable with_hold : X -> H -> X.
Notation meas := (meas U P H).
Notation est := (est X U P H D).
Notation addMeasurement := (addMeasurement (D := D) propagate with_pos with_hold).
Notation run := (run (D := D) propagate with_pos with_hold).
Definition fit (m : meas) : Prop := normal (m_t m).
Lemma before_ok (a b : meas) : fit a -> fit b -> before a b = true <-> time a < time b \/ time a = time b /\ turn a < turn b.
Proof.
  intros A B. unfold before. rewrite eq_ok, lt_ok by assumption. fold (time a) (time b).
  assert (I : (index (m_z a) <? index (m_z b))%nat = true <-> turn a < turn b) by (unfold turn; destruct (m_z a), (m_z b); cbn; split; intros; try reflexivity; try discriminate; lia).
  destruct (Z.eqb_spec (time a) (time b)) as [E|E]; [rewrite I|rewrite Z.ltb_lt]; lia.
Qed.
Lemma order_trans (a b c : meas) : in_order a b -> in_order b c -> in_order a c.
Proof. unfold in_order. lia. Qed.
Lemma insert_sorted (m : meas) l : fit m -> Forall fit l -> StronglySorted in_order l -> StronglySorted in_order (insert m l).
Proof.
  intros M F S. induction l as [|x l IH]; cbn [insert]; [constructor; constructor|]. inversion F; subst. inversion S; subst. destruct (before m x) eqn:B.
  - apply before_ok in B; [|assumption|assumption]. assert (O : in_order m x) by (unfold in_order; lia). constructor; [exact S|]. constructor; [exact O|].
    eapply Forall_impl; [|eassumption]. intros y. apply order_trans. exact O.
  - constructor; [auto|]. apply Forall_forall. intros y I. apply insert_in in I. destruct I as [ -> |I].
    + assert (Q : ~ (time m < time x \/ time m = time x /\ turn m < turn x)) by (intros Q; apply before_ok in Q; [congruence|assumption|assumption]). unfold in_order. lia.
    + rewrite Forall_forall in *. auto.
Qed.
Lemma those_none t k (l : list meas) : (forall x, In x l -> time x = t -> turn x = k -> False) -> those t k l = [].
Proof.
  intros N. induction l as [|x l IH]; [reflexivity|]. unfold those in *. cbn [filter]. destruct ((time x =? t) && (turn x =? k)) eqn:Q.
  - apply andb_prop in Q. destruct Q as [A B]. apply Z.eqb_eq in A, B. destruct (N x (in_eq _ _) A B).
  - apply IH. intros y I. apply N. right. exact I.
Qed.
Lemma those_app t k (a b : list meas) : those t k (a ++ b) = those t k a ++ those t k b.
Proof. apply filter_app. Qed.
Lemma insert_those t k (m : meas) l : fit m -> Forall fit l -> StronglySorted in_order l -> those t k (insert m l) = those t k (l ++ [m]).
Proof.
  intros M F S. induction l as [|x l IH]; cbn [insert app]; [reflexivity|]. inversion F; subst. inversion S; subst. destruct (before m x) eqn:B.
  - apply before_ok in B; [|assumption|assumption]. change (m :: x :: l) with ([m] ++ (x :: l)). rewrite those_app. change (x :: l ++ [m]) with ((x :: l) ++ [m]). rewrite those_app.
    destruct ((time m =? t) && (turn m =? k)) eqn:Q.
    + assert (E : those t k (x :: l) = []).
      { apply andb_prop in Q. destruct Q as [A C]. apply Z.eqb_eq in A, C. apply those_none. intros y I T K. assert (O : in_order x y) by (destruct I as [ <- |I]; [unfold in_order; lia|rewrite Forall_forall in *; auto]). unfold in_order in O. lia. }
      rewrite E, app_nil_r. reflexivity.
    + assert (E : those t k [m] = []) by (unfold those; cbn [filter]; rewrite Q; reflexivity). rewrite E, app_nil_r. reflexivity.
  - unfold those in *. cbn [filter]. destruct ((time x =? t) && (turn x =? k)); [f_equal|]; auto.
Qed.
Lemma lower_bound_filter t (l : list meas) : normal t -> Forall fit l -> StronglySorted in_order l -> lower_bound t l = filter (fun m => instant t <=? time m) l.
Proof.
  intros N F S. induction l as [|x l IH]; [reflexivity|]. inversion F; subst. inversion S; subst. cbn [lower_bound filter].
  assert (A : at_or_after t x = (instant t <=? time x)).
  { unfold at_or_after. rewrite eq_ok, lt_ok by assumption. fold (time x). destruct (Z.eqb_spec (time x) (instant t)), (Z.ltb_spec (time x) (instant t)), (Z.leb_spec (instant t) (time x)); cbn [negb]; try reflexivity; lia. }
  rewrite A. destruct (Z.leb_spec (instant t) (time x)) as [L|L]; [|auto].
  f_equal. clear IH. match goal with Q : Forall (in_order x) l |- _ => rename Q into O end. clear -L O. induction l as [|y l IH]; [reflexivity|]. inversion O; subst. cbn [filter]. destruct (Z.leb_spec (instant t) (time y)); [f_equal; auto|]. unfold in_order in *. lia.
Qed.
Lemma filter_sorted f (l : list meas) : StronglySorted in_order l -> StronglySorted in_order (filter f l).
Proof.
  induction 1 as [|x l S IH O]; [constructor|]. cbn [filter]. destruct (f x); [|exact IH]. constructor; [exact IH|]. apply Forall_forall. intros y I. apply filter_In in I. rewrite Forall_forall in O. apply O, I.
Qed.
Lemma last_newest (l : list meas) n r : rev l = n :: r -> StronglySorted in_order l -> In n l /\ forall x, In x l -> time x <= time n.
Proof.
  intros R S. apply rev_back in R. subst l. split; [apply in_or_app; right; left; reflexivity|]. induction (rev r) as [|y l IH]; cbn [app] in *; intros x I.
  - destruct I as [ -> |[]]. lia.
  - inversion S; subst. destruct I as [ -> |I]; [|auto]. match goal with Q : Forall _ _ |- _ => rewrite Forall_forall in Q; specialize (Q n (in_or_app _ _ _ (or_intror (in_eq _ _)))); unfold in_order in Q; lia end.
Qed.
Lemma those_filter t k T (l : list meas) : those t k (filter (fun m => T <=? time m) l) = if T <=? t then those t k l else [].
Proof.
  induction l as [|x l IH]; [destruct (T <=? t); reflexivity|]. cbn [filter]. destruct (Z.leb_spec T (time x)), (Z.leb_spec T t); unfold those in *; cbn [filter]; destruct (Z.eqb_spec (time x) t); cbn [andb]; try rewrite IH; try reflexivity; lia.
Qed.
(** What holds of the measurements kept [M] when those accepted are [A] *)
Definition keeps (M A : list meas) : Prop :=
  StronglySorted in_order M /\ (forall x, In x M -> In x A) /\ (forall x, In x A -> exists y, In y M /\ time x <= time y) /\
  (forall t k, recent t A -> those t k M = those t k A) /\ (forall t k x, In x A -> t < time x - 1000000000 -> those t k M = []).
Lemma keeps_step M A (m n : meas) r t : keeps M A -> fit m -> Forall fit M -> rev (insert m M) = n :: r -> normal t -> instant t = time n - 1000000000 ->
  keeps (lower_bound t (insert m M)) (A ++ [m]).
Proof.
  intros (S & I & Y & R & O) Fm F E N T. pose proof (insert_sorted m M Fm F S) as S'.
  assert (F' : Forall fit (insert m M)) by (apply Forall_forall; intros x J; apply insert_in in J; destruct J as [ -> |J]; [exact Fm|rewrite Forall_forall in F; auto]).
  destruct (last_newest _ _ _ E S') as (In_n & Max). rewrite lower_bound_filter by assumption. rewrite T.
  assert (Inc : forall x, In x (insert m M) -> In x (A ++ [m])) by (intros x J; apply insert_in in J; apply in_or_app; destruct J as [ -> |J]; [right; left; reflexivity|left; auto]).
  assert (MaxA : forall x, In x (A ++ [m]) -> time x <= time n).
  { intros x J. apply in_app_or in J. destruct J as [J|[ <- |[]]].
    - destruct (Y x J) as (y & Jy & L). specialize (Max y). assert (In y (insert m M)) by (apply insert_in; right; exact Jy). specialize (Max H0). lia.
    - apply Max. apply insert_in. left. reflexivity. }
  split; [apply filter_sorted, S'|]. split; [intros x J; apply filter_In in J; apply Inc, J|]. split; [|split].
  - intros x J. exists n. split; [|apply MaxA, J]. apply filter_In. split; [exact In_n|]. apply Z.leb_le. lia.
  - intros t' k Q. rewrite those_filter. assert (L : time n - 1000000000 <= t') by (apply Q, Inc, In_n). rewrite (proj2 (Z.leb_le _ _) L). rewrite insert_those by assumption.
    rewrite !those_app. f_equal. apply R. intros x J. apply Q. apply in_or_app. left. exact J.
  - intros t' k x J L. rewrite those_filter. pose proof (MaxA x J). replace (time n - 1000000000 <=? t') with false by (symmetry; apply Z.leb_gt; lia). reflexivity.
Qed.
Variable t0 : utc.
Hypothesis T0 : start_ok t0.
Lemma session_sec t : in_session t0 t -> - 2 ^ 62 <= sec t < 2 ^ 62.
Proof. destruct T0 as (N0 & S0). intros (N & B). unfold normal, instant in *. lia. Qed.
Lemma add_keeps m (e : est) b e' A : addMeasurement m e = Some (b, e') -> sane t0 e -> in_session t0 (m_t m) -> keeps (measurements e) A ->
  keeps (measurements e') (if b then A ++ [m] else A).
Proof.
  intros E S I K. pose proof (add_inv propagate with_pos with_hold t0 T0 m e b e' E S I) as (FA & _). destruct S as (NE & C & F).
  assert (Fm : fit m) by apply I. assert (FM : Forall fit (measurements e)) by (eapply Forall_impl; [|exact F]; intros x Q; apply Q).
  destruct b; [|rewrite (FA eq_refl); exact K].
  unfold EstModel.addMeasurement in E. destruct (front (states e)) as [f|]; [|discriminate]. cbn [bind] in E. destruct (tq_lt (m_t m) (s_t f)) as [st|]; [|discriminate]. cbn [bind] in E.
  destruct (st || unknown (m_z m) (caches e)); [congruence|]. destruct (back (states e)) as [bk|]; [|discriminate]. cbn [bind] in E.
  match type of E with context [bind ?a _] => destruct a as [l|]; [|discriminate] end. cbn [bind] in E. destruct (EstModel.rollFilter _ _ _ _ _ _ l) as [l1|]; [|discriminate]. cbn [bind] in E.
  unfold dropOldMeasurements in E. destruct (rev (insert m (measurements e))) as [|nw r] eqn:R; [discriminate|].
  assert (Is : in_session t0 (m_t nw)). { assert (Q : In nw (insert m (measurements e))) by (apply in_rev; rewrite R; apply in_eq). apply insert_in in Q. destruct Q as [ -> |Q]; [exact I|]. rewrite Forall_forall in F. apply F, Q. }
  destruct (one_second (m_t nw) (proj1 Is) (session_sec _ Is)) as (ts & E1 & N1 & I1). rewrite E1 in E. cbn [bind] in E. destruct (drop_states ts l1) as [l2|]; [|discriminate]. cbn [bind fst snd] in E. injection E as <-.
  cbn [measurements]. apply (keeps_step _ _ m nw r ts K Fm FM R N1 I1).
Qed.
Lemma run_keeps l : forall (e : est) bs e' A, run l e = Some (bs, e') -> sane t0 e -> Forall (fun m => in_session t0 (m_t m)) (offered l) -> keeps (measurements e) A ->
  keeps (measurements e') (A ++ accepted l bs).
Proof.
  induction l as [|c l IH]; intros e bs e' A E S F K; cbn [EstModel.run] in E.
  - injection E as <- <-. cbn [accepted]. rewrite app_nil_r. exact K.
  - destruct c as [m|y ee]; cbn [offered] in F.
    + inversion F; subst. destruct (addMeasurement m e) as [[b e1]|] eqn:Q; [|discriminate]. cbn [bind snd fst] in E. destruct (run l e1) as [[bs1 e2]|] eqn:R; [|discriminate]. cbn [bind fst snd] in E. injection E as <- <-.
      destruct (add_inv propagate with_pos with_hold t0 T0 _ _ _ _ Q S ltac:(assumption)) as (_ & S1 & _). pose proof (add_keeps _ _ _ _ _ Q S ltac:(assumption) K) as K1.
      pose proof (IH _ _ _ _ R S1 ltac:(assumption) K1) as Z. cbn [accepted]. destruct b; [rewrite <- app_assoc in Z; exact Z|exact Z].
    + destruct (estEph y ee e) as [e1|] eqn:Q; [|discriminate]. cbn [bind] in E. cbn [accepted]. eapply IH; [exact E|eapply sane_eph; eauto|exact F|].
      unfold estEph in Q. destruct (ephCb y ee (sats e)); [|discriminate]. cbn [bind] in Q. injection Q as <-. exact K.
Qed.
Lemma kept l x0 u0 bs (e : est) : run l (init t0 x0 u0) = Some (bs, e) -> Forall (fun m => in_session t0 (m_t m)) (offered l) -> keeps (measurements e) (accepted l bs).
Proof.
  intros R F. pose proof (run_keeps l (init t0 x0 u0) bs e [] R (sane_init t0 T0 x0 u0) F) as K. cbn [app] in K. apply K.
  split; [constructor|]. split; [intros x []|]. split; [intros x []|]. split; [reflexivity|intros t k x []].
Qed.
End Order.
