From Coq Require Import List Arith Bool Lia.
From Verif Require Import Bytes CircularBufferModel CircularBufferSpec.
Import ListNotations.

Section P.
Context {A : Type}.
Variable N : nat.
Hypothesis HN : 2 <= N.

Notation incr := (incr N). Notation decr := (decr N).

Definition pos (h i : nat) : nat := if h + i <? N then h + i else h + i - N.

Lemma mod_pos h i : h < N -> i <= N -> (h + i) mod N = pos h i \/ (i = N /\ h = 0).
Proof.
  intros. unfold pos. destruct (Nat.ltb_spec (h + i) N); [left; apply Nat.mod_small; assumption|].
  left. replace (h + i) with (h + i - N + 1 * N) by lia. rewrite Nat.mod_add by lia.
  rewrite Nat.mod_small by lia. lia.
Qed.
Lemma mod_pos' h i : h < N -> i <= N -> (h + i) mod N = pos h i.
Proof.
  intros. unfold pos. destruct (Nat.ltb_spec (h + i) N); [apply Nat.mod_small; assumption|].
  replace (h + i) with (h + i - N + 1 * N) by lia. rewrite Nat.mod_add by lia.
  rewrite Nat.mod_small by lia. lia.
Qed.
Lemma pos_lt h i : h < N -> i <= N -> pos h i < N.
Proof. intros. unfold pos. destruct (Nat.ltb_spec (h + i) N); lia. Qed.
Lemma pos_0 h : h < N -> pos h 0 = h.
Proof. intros. unfold pos. destruct (Nat.ltb_spec (h + 0) N); lia. Qed.
Lemma incr_pos h i : h < N -> i < N -> incr (pos h i) = pos h (S i).
Proof.
  intros. unfold CircularBufferModel.incr, pos.
  destruct (Nat.ltb_spec (h + i) N), (Nat.ltb_spec (h + S i) N);
  match goal with |- context [?a =? ?b] => destruct (Nat.eqb_spec a b) end; lia.
Qed.
Lemma decr_pos h i : h < N -> i < N -> decr (pos h (S i)) = pos h i.
Proof.
  intros. unfold CircularBufferModel.decr, pos.
  destruct (Nat.ltb_spec (h + i) N), (Nat.ltb_spec (h + S i) N);
  match goal with |- context [?a =? ?b] => destruct (Nat.eqb_spec a b) end; lia.
Qed.
Lemma pos_inj h i j : h < N -> i < N -> j < N -> pos h i = pos h j -> i = j.
Proof.
  intros ? ? ?. unfold pos. destruct (Nat.ltb_spec (h + i) N), (Nat.ltb_spec (h + j) N); lia.
Qed.
Lemma pos_incr h i : h < N -> i < N -> pos (incr h) i = pos h (S i).
Proof.
  intros. unfold CircularBufferModel.incr, pos. destruct (Nat.eqb_spec (S h) N);
  repeat match goal with |- context [?a <? ?b] => destruct (Nat.ltb_spec a b) end; lia.
Qed.
Lemma pos_decr h i : h < N -> i < N -> pos (decr h) (S i) = pos h i.
Proof.
  intros. unfold CircularBufferModel.decr, pos. destruct (Nat.eqb_spec h 0);
  repeat match goal with |- context [?a <? ?b] => destruct (Nat.ltb_spec a b) end; lia.
Qed.
Lemma incr_lt h : h < N -> incr h < N.
Proof. unfold CircularBufferModel.incr. destruct (Nat.eqb_spec (S h) N); lia. Qed.
Lemma decr_lt h : h < N -> decr h < N.
Proof. unfold CircularBufferModel.decr. destruct (Nat.eqb_spec h 0); lia. Qed.

(** representation relation *)
Definition rep (b : cb A) (l : list A) : Prop :=
  length (mem b) = N /\ head b < N /\ length l < N /\ tail b = pos (head b) (length l) /\
  forall i, i < length l -> content (get b (pos (head b) i)) = nth_error l i.

Lemma put_mem (b : cb A) i s e : i < length (mem b) ->
  length (mem (put b i s e)) = length (mem b) /\ head (put b i s e) = head b /\
  tail (put b i s e) = tail b /\ events (put b i s e) = e :: events b /\
  forall j, get (put b i s e) j = if j =? i then s else get b j.
Proof.
  intros H. unfold put. destruct (upd_some _ (mem b) i s H) as [m E]. rewrite E. cbn [mem head tail events].
  repeat split; try reflexivity.
  - eapply upd_length; eassumption.
  - intros j. unfold get. cbn [mem]. apply (upd_nth _ _ _ _ _ raw_slot j E).
Qed.

Lemma put_content (b : cb A) i s e j : i < length (mem b) ->
  content (get (put b i s e) j) = if j =? i then content s else content (get b j).
Proof.
  intros H. destruct (put_mem b i s e H) as (_ & _ & _ & _ & G). rewrite G.
  destruct (j =? i); reflexivity.
Qed.

Lemma rep_init : rep (init N) (@nil A).
Proof.
  unfold rep, init. cbn [mem head tail length]. rewrite repeat_length.
  repeat split; try lia. rewrite pos_0 by lia. reflexivity.
Qed.

Lemma rep_nonempty_or b l : rep b l -> empty b = true <-> l = [].
Proof.
  intros (HL & HH & HS & HT & HC). unfold empty. rewrite HT. split.
  - intros E. apply Nat.eqb_eq in E. rewrite <- (pos_0 (head b)) in E at 1 by assumption.
    apply pos_inj in E; try lia. destruct l; [reflexivity|discriminate].
  - intros ->. cbn [length]. rewrite pos_0 by assumption. apply Nat.eqb_refl.
Qed.

Lemma rep_empty b l : rep b l -> empty b = match l with [] => true | _ => false end.
Proof.
  intros H. pose proof (rep_nonempty_or b l H) as E. destruct (empty b).
  - rewrite (proj1 E eq_refl). reflexivity.
  - destruct l; [|reflexivity]. apply E. reflexivity.
Qed.

Lemma rep_full b l : rep b l -> full N b = (length l =? N - 1).
Proof.
  intros (HL & HH & HS & HT & HC). unfold full, it_plus.
  assert (tail b < N) by (rewrite HT; apply pos_lt; lia).
  rewrite mod_pos' by lia.
  assert (E : pos (tail b) 1 = pos (head b) (S (length l))).
  { rewrite HT. rewrite <- incr_pos by lia. unfold CircularBufferModel.incr, pos.
    repeat match goal with |- context [?a <? ?b] => destruct (Nat.ltb_spec a b)
    | |- context [?a =? ?b] => destruct (Nat.eqb_spec a b) end; lia. }
  rewrite E. clear E. unfold pos.
  destruct (Nat.eqb_spec (length l) (N - 1)), (Nat.ltb_spec (head b + S (length l)) N);
   match goal with |- context [?a =? ?b] => destruct (Nat.eqb_spec a b) end; lia.
Qed.

Lemma rep_size b l : rep b l -> size N b = length l.
Proof.
  intros (HL & HH & HS & HT & HC). unfold size, idx. rewrite HT. unfold pos.
  repeat match goal with |- context [?a <? ?b] => destruct (Nat.ltb_spec a b)
    | |- context [?a <=? ?b] => destruct (Nat.leb_spec a b) end; lia.
Qed.

Lemma rep_at b l i : rep b l -> i < length l -> at_ N b i = nth_error l i.
Proof.
  intros (HL & HH & HS & HT & HC) Hi. unfold at_, it_plus. rewrite mod_pos' by lia. apply HC; assumption.
Qed.

Lemma rep_front b x l : rep b (x :: l) -> front b = Some x.
Proof.
  intros (HL & HH & HS & HT & HC). unfold front. rewrite <- (pos_0 (head b)) by assumption.
  rewrite HC by (cbn; lia). reflexivity.
Qed.

Lemma it_minus_1 p : p < N -> it_minus N p 1 = decr p.
Proof.
  intros. unfold it_minus, CircularBufferModel.decr. rewrite (Nat.mod_small 1) by lia.
  destruct (Nat.eqb_spec p 0).
  - subst. rewrite Nat.mod_small by lia. lia.
  - replace (p + N - 1) with (p - 1 + 1 * N) by lia. rewrite Nat.mod_add by lia. apply Nat.mod_small; lia.
Qed.

Lemma rep_back b l x : rep b (l ++ [x]) -> back N b = Some x.
Proof.
  intros (HL & HH & HS & HT & HC). rewrite app_length in *. cbn [length] in *.
  unfold back. assert (tail b < N) by (rewrite HT; apply pos_lt; lia).
  rewrite it_minus_1 by assumption. rewrite HT.
  replace (length l + 1) with (S (length l)) by lia. rewrite decr_pos by lia.
  rewrite HC by lia. rewrite nth_error_app2 by lia. rewrite Nat.sub_diag. reflexivity.
Qed.

Lemma rep_iterate b l : rep b l -> forall fuel i, i <= length l -> length l - i < fuel ->
  iterate N fuel b (pos (head b) i) = map Some (skipn i l).
Proof.
  intros R. pose proof R as (HL & HH & HS & HT & HC).
  induction fuel as [|f IH]; intros i Hi Hf; [lia|]. cbn [iterate]. rewrite HT.
  destruct (Nat.eqb_spec (pos (head b) i) (pos (head b) (length l))) as [E|E].
  - apply pos_inj in E; try lia. subst i. rewrite skipn_all. reflexivity.
  - assert (i < length l). { destruct (Nat.eq_dec i (length l)); [subst; congruence|lia]. }
    rewrite HC by assumption. rewrite incr_pos by lia. rewrite IH by lia.
    destruct (nth_error l i) eqn:En; [|apply nth_error_None in En; lia].
    assert (skipn i l = a :: skipn (S i) l) as ->; [|reflexivity].
    clear -En. revert l En. induction i; intros [|y l] En; cbn in *; try discriminate; [congruence|auto].
Qed.

Lemma rep_contents b l : rep b l -> contents N b = map Some l.
Proof.
  intros R. pose proof R as (HL & HH & HS & HT & HC). unfold contents.
  rewrite <- (pos_0 (head b)) by assumption. rewrite (rep_iterate b l R) by lia. reflexivity.
Qed.

(** operations *)
Lemma rep_pop_front b x l : rep b (x :: l) -> rep (pop_front N b) l.
Proof.
  intros (HL & HH & HS & HT & HC). cbn [length] in *. unfold pop_front, destroy.
  set (s := mkSlot _ _). set (e := Dtor _ _).
  destruct (put_mem b (head b) s e ltac:(lia)) as (M1 & M2 & M3 & M4 & M5).
  unfold rep. cbn [set_head mem head tail length]. rewrite M1, M2, M3.
  repeat split; try lia.
  - apply incr_lt; assumption.
  - rewrite pos_incr by lia. assumption.
  - intros i Hi. rewrite pos_incr by lia.
    change (get (set_head (put b (head b) s e) (incr (head b))) (pos (head b) (S i)))
      with (get (put b (head b) s e) (pos (head b) (S i))).
    rewrite put_content by lia.
    destruct (Nat.eqb_spec (pos (head b) (S i)) (head b)) as [E|E].
    + rewrite <- (pos_0 (head b)) in E at 2 by assumption. apply pos_inj in E; lia.
    + rewrite HC by lia. reflexivity.
Qed.

Lemma nth_error_removelast (l : list A) i : i < length l - 1 -> nth_error (removelast l) i = nth_error l i.
Proof.
  revert i. induction l as [|x l IH]; intros i Hi; [cbn in Hi; lia|].
  destruct l as [|y l]; [cbn in Hi; lia|].
  change (removelast (x :: y :: l)) with (x :: removelast (y :: l)).
  destruct i; [reflexivity|]. cbn [nth_error]. apply IH. cbn [length] in *. lia.
Qed.
Lemma length_removelast (l : list A) : length (removelast l) = length l - 1.
Proof.
  induction l as [|x l IH]; [reflexivity|]. destruct l as [|y l]; [reflexivity|].
  change (removelast (x :: y :: l)) with (x :: removelast (y :: l)). cbn [length] in *. lia.
Qed.

Lemma rep_pop_back b l : rep b l -> l <> [] -> rep (pop_back N b) (removelast l).
Proof.
  intros (HL & HH & HS & HT & HC) NE. unfold pop_back, destroy.
  assert (0 < length l) by (destruct l; [congruence|cbn; lia]).
  assert (HTl : tail b < N) by (rewrite HT; apply pos_lt; lia).
  set (s := mkSlot _ _). set (e := Dtor _ _).
  destruct (put_mem b (tail b) s e ltac:(lia)) as (M1 & M2 & M3 & M4 & M5).
  unfold rep. cbn [set_tail mem head tail]. rewrite M1, M2, M3, length_removelast.
  repeat split; try lia.
  - rewrite HT. replace (length l) with (S (length l - 1)) at 1 by lia. apply decr_pos; lia.
  - intros i Hi.
    change (get (set_tail (put b (tail b) s e) (decr (tail b))) (pos (head b) i))
      with (get (put b (tail b) s e) (pos (head b) i)).
    rewrite put_content by lia.
    destruct (Nat.eqb_spec (pos (head b) i) (tail b)) as [E|E].
    + rewrite HT in E. apply pos_inj in E; lia.
    + rewrite HC by lia. symmetry. apply nth_error_removelast. lia.
Qed.

Lemma rep_put_tail b l x s e : rep b l -> length l < N - 1 -> content s = Some x ->
  rep (set_tail (put b (tail b) s e) (incr (tail (put b (tail b) s e)))) (l ++ [x]).
Proof.
  intros (HL & HH & HS & HT & HC) HF Hs.
  assert (HTl : tail b < N) by (rewrite HT; apply pos_lt; lia).
  destruct (put_mem b (tail b) s e ltac:(lia)) as (M1 & M2 & M3 & M4 & M5).
  unfold rep. cbn [set_tail mem head tail]. rewrite M1, M2, M3, app_length. cbn [length].
  repeat split; try lia.
  - rewrite HT at 1. rewrite incr_pos by lia. f_equal. lia.
  - intros i Hi.
    change (get (set_tail (put b (tail b) s e) (incr (tail b))) (pos (head b) i))
      with (get (put b (tail b) s e) (pos (head b) i)).
    rewrite put_content by lia.
    destruct (Nat.eqb_spec (pos (head b) i) (tail b)) as [E|E].
    + rewrite HT in E. apply pos_inj in E; try lia. subst i.
      rewrite nth_error_app2 by lia. rewrite Nat.sub_diag. assumption.
    + assert (i <> length l) by (intros ->; congruence).
      rewrite nth_error_app1 by lia. apply HC. lia.
Qed.

Lemma rep_put_head b l x s e : rep b l -> length l < N - 1 -> content s = Some x ->
  rep (put (set_head b (decr (head b))) (decr (head b)) s e) (x :: l).
Proof.
  intros (HL & HH & HS & HT & HC) HF Hs.
  pose proof (decr_lt (head b) HH) as HD.
  destruct (put_mem (set_head b (decr (head b))) (decr (head b)) s e) as (M1 & M2 & M3 & M4 & M5); [cbn; lia|].
  unfold rep. rewrite M1, M2, M3. cbn [set_head mem head tail length].
  repeat split; try lia.
  - rewrite pos_decr by lia. assumption.
  - intros i Hi. rewrite put_content by (cbn; lia).
    destruct (Nat.eqb_spec (pos (decr (head b)) i) (decr (head b))) as [E|E].
    + rewrite <- (pos_0 (decr (head b))) in E at 2 by assumption. apply pos_inj in E; try lia. subst i.
      assumption.
    + destruct i; [rewrite pos_0 in E by assumption; congruence|].
      rewrite pos_decr by lia. cbn [nth_error]. apply HC. lia.
Qed.

Lemma rep_make_room_front b l : rep b l ->
  let b1 := if full N b then pop_front N b else b in
  rep b1 (if length l =? N - 1 then List.tl l else l) /\
  length (if length l =? N - 1 then List.tl l else l) < N - 1.
Proof.
  intros R. pose proof R as (HL & HH & HS & HT & HC). cbv zeta. rewrite (rep_full b l R).
  destruct (Nat.eqb_spec (length l) (N - 1)) as [E|E]; [|split; [assumption|lia]].
  destruct l as [|x l]; [cbn in *; lia|]. cbn [List.tl]. split; [|cbn in *; lia].
  apply rep_pop_front with x. assumption.
Qed.

Lemma rep_make_room_back b l : rep b l ->
  let b1 := if full N b then pop_back N b else b in
  rep b1 (if length l =? N - 1 then removelast l else l) /\
  length (if length l =? N - 1 then removelast l else l) < N - 1.
Proof.
  intros R. pose proof R as (HL & HH & HS & HT & HC). cbv zeta. rewrite (rep_full b l R).
  destruct (Nat.eqb_spec (length l) (N - 1)) as [E|E]; [|split; [assumption|lia]].
  rewrite length_removelast. split; [|lia]. apply rep_pop_back; [assumption|].
  intros ->; cbn in *; lia.
Qed.

Lemma rep_clear_loop fuel : forall b l, rep b l -> length l <= fuel -> rep (clear_loop N fuel b) [].
Proof.
  induction fuel as [|f IH]; intros b l R H; cbn [clear_loop].
  - destruct l; [assumption|cbn in H; lia].
  - rewrite (rep_empty b l R). destruct l as [|x l]; [assumption|].
    apply IH with l; [apply rep_pop_front with x; assumption|cbn in H; lia].
Qed.

Lemma rep_set_at b l i x : rep b l -> i < length l ->
  rep (set_at N b i x) (firstn i l ++ x :: skipn (S i) l).
Proof.
  intros (HL & HH & HS & HT & HC) Hi. unfold set_at, assign, it_plus. rewrite mod_pos' by lia.
  assert (HP : pos (head b) i < length (mem b)) by (rewrite HL; apply pos_lt; lia).
  set (s := mkSlot _ _). set (e := Assign _ _).
  destruct (put_mem b (pos (head b) i) s e HP) as (M1 & M2 & M3 & M4 & M5).
  assert (LL : length (firstn i l ++ x :: skipn (S i) l) = length l).
  { rewrite app_length, firstn_length, Nat.min_l by lia. cbn [length]. rewrite skipn_length. lia. }
  unfold rep. rewrite M1, M2, M3, LL. repeat split; try assumption.
  intros j Hj. rewrite put_content by assumption.
  assert (Lf : length (firstn i l) = i) by (rewrite firstn_length; lia).
  destruct (Nat.eqb_spec (pos (head b) j) (pos (head b) i)) as [E|E].
  - apply pos_inj in E; try lia. subst j. rewrite nth_error_app2 by lia. rewrite Lf, Nat.sub_diag. reflexivity.
  - rewrite HC by assumption. assert (j <> i) by congruence.
    destruct (Nat.lt_ge_cases j i).
    + rewrite nth_error_app1 by lia. symmetry. clear -H0. revert l j H0.
      induction i; intros l j H; [lia|]. destruct l, j; try reflexivity. cbn. apply IHi. lia.
    + rewrite nth_error_app2 by lia. rewrite Lf. replace (j - i) with (S (j - S i)) by lia. cbn [nth_error].
      clear -H H0. assert (exists k, j = S i + k) as [k ->] by (exists (j - S i); lia).
      replace (S i + k - S i) with k by lia. clear H H0. revert l. 
      generalize (S i). induction n; intros l; [reflexivity|]. destruct l; [destruct k; reflexivity|]. cbn. apply IHn.
Qed.

Lemma rep_step b l o l' : rep b l -> dq_step (N - 1) l o = Some l' -> rep (step N b o) l'.
Proof.
  intros R E. destruct o; cbn [dq_step step] in *.
  - injection E as <-. destruct (rep_make_room_front b l R) as [R1 L1]. apply rep_put_tail; [exact R1|exact L1|reflexivity].
  - injection E as <-. destruct (rep_make_room_front b l R) as [R1 L1]. apply rep_put_tail; [exact R1|exact L1|reflexivity].
  - injection E as <-. destruct (rep_make_room_back b l R) as [R1 L1]. apply rep_put_head; [exact R1|exact L1|reflexivity].
  - injection E as <-. destruct (rep_make_room_back b l R) as [R1 L1]. apply rep_put_head; [exact R1|exact L1|reflexivity].
  - destruct l; [discriminate|]. injection E as <-. apply rep_pop_front with a; assumption.
  - destruct l; [discriminate|]. injection E as <-. apply (rep_pop_back b (a :: l)); [assumption|discriminate].
  - injection E as <-. unfold clear. apply rep_clear_loop with l; [assumption|]. destruct R as (_ & _ & ? & _). lia.
  - destruct (Nat.ltb_spec i (length l)); [|discriminate]. injection E as <-. apply rep_set_at; assumption.
Qed.

Lemma rep_run ops : forall b l l', rep b l -> dq_run (N - 1) l ops = Some l' -> rep (fold_left (step N) ops b) l'.
Proof.
  induction ops as [|o r IH]; intros b l l' R E; cbn [dq_run fold_left] in *.
  - congruence.
  - destruct (dq_step (N - 1) l o) as [l1|] eqn:E1; [|discriminate]. eapply IH; [|exact E].
    eapply rep_step; eassumption.
Qed.

(** every observation of the buffer is that of the queue *)
Definition observes (b : cb A) (l : list A) : Prop :=
  contents N b = map Some l /\ size N b = length l /\ length l <= N - 1 /\
  empty b = (length l =? 0) /\ full N b = (length l =? N - 1) /\
  (l <> [] -> front b = hd_error l /\ back N b = hd_error (rev l)) /\
  (forall i, i < length l -> at_ N b i = nth_error l i).

Lemma rep_observes b l : rep b l -> observes b l.
Proof.
  intros R. pose proof R as (HL & HH & HS & HT & HC).
  split; [apply rep_contents; assumption|]. split; [apply rep_size; assumption|].
  split; [lia|]. split; [rewrite (rep_empty b l R); destruct l; reflexivity|].
  split; [apply rep_full; assumption|]. split; [|intros; apply rep_at; assumption].
  intros NE. split.
  - destruct l; [congruence|]. cbn [hd_error]. apply rep_front with l. assumption.
  - destruct (exists_last NE) as (l0 & x & ->). rewrite rev_app_distr. cbn [rev app hd_error].
    apply rep_back with l0. assumption.
Qed.

Lemma run_observes ops l : dq_run (N - 1) [] ops = Some l -> observes (run N ops) l.
Proof. intros E. apply rep_observes. unfold run. eapply rep_run; [apply rep_init|exact E]. Qed.

(** lifetimes *)

Definition life (b : cb A) (n : nat) : Prop :=
  forallb event_ok (events b) = true /\ ctors b = dtors b + n /\
  forall i, i < N -> live (get b i) = true <-> exists k, k < n /\ i = pos (head b) k.

Lemma life_init : life (init N) 0.
Proof.
  split; [reflexivity|]. split; [reflexivity|]. intros i Hi. unfold get, init. cbn [mem].
  split; [|intros (k & Hk & _); lia].
  intros E. exfalso. revert E. unfold raw_slot. clear HN.
  assert (forall n j, live (nth j (repeat (@mkSlot A None false) n) (mkSlot None false)) = false) as X.
  { induction n; destruct j; cbn; auto. }
  rewrite X. discriminate.
Qed.

Lemma life_pop_front b x l : rep b (x :: l) -> life b (S (length l)) -> life (pop_front N b) (length l).
Proof.
  intros (HL & HH & HS & HT & HC) (F1 & F2 & F3). cbn [length] in *. unfold pop_front, destroy.
  set (s := mkSlot _ _).
  destruct (put_mem b (head b) s (Dtor (head b) (live (get b (head b)))) ltac:(lia)) as (M1 & M2 & M3 & M4 & M5).
  assert (LV : live (get b (head b)) = true).
  { apply F3; [assumption|]. exists 0. rewrite pos_0 by assumption. split; [lia|reflexivity]. }
  unfold life, ctors, dtors in *. cbn [set_head events head]. rewrite M2, M4. rewrite LV. cbn [forallb event_ok filter is_ctor is_dtor length].
  split; [assumption|]. split; [lia|]. intros i Hi.
  match goal with |- context [live (get (set_head ?B ?h) i)] => change (get (set_head B h) i) with (get B i) end.
  rewrite LV in M5. rewrite M5. destruct (Nat.eqb_spec i (head b)) as [E|E].
  - subst i. unfold s. cbn [live]. split; [discriminate|]. intros (k & Hk & E).
    rewrite pos_incr in E by lia. rewrite <- (pos_0 (head b)) in E at 1 by assumption. apply pos_inj in E; lia.
  - rewrite F3 by assumption. split; intros (k & Hk & ->).
    + destruct k; [rewrite pos_0 in E by assumption; congruence|]. exists k. rewrite pos_incr by lia. split; [lia|reflexivity].
    + exists (S k). rewrite pos_incr by lia. split; [lia|reflexivity].
Qed.

Lemma life_construct_tail b l x : rep b l -> life b (length l) -> length l < N - 1 ->
  life (set_tail (construct b (tail b) x) (incr (tail (construct b (tail b) x)))) (S (length l)).
Proof.
  intros (HL & HH & HS & HT & HC) (F1 & F2 & F3) HF. unfold construct.
  assert (HTl : tail b < N) by (rewrite HT; apply pos_lt; lia).
  set (s := mkSlot _ _).
  destruct (put_mem b (tail b) s (Ctor (tail b) (negb (live (get b (tail b))))) ltac:(lia)) as (M1 & M2 & M3 & M4 & M5).
  assert (LV : live (get b (tail b)) = false).
  { destruct (live (get b (tail b))) eqn:E; [|reflexivity]. apply F3 in E; [|assumption].
    destruct E as (k & Hk & E). rewrite HT in E. apply pos_inj in E; lia. }
  unfold life, ctors, dtors in *. cbn [set_tail events head]. rewrite M2, M4. rewrite LV in *. cbn [negb forallb event_ok filter is_ctor is_dtor length].
  split; [assumption|]. split; [lia|]. intros i Hi.
  match goal with |- context [live (get (set_tail ?B ?h) i)] => change (get (set_tail B h) i) with (get B i) end.
  cbn [negb] in M5. rewrite M5. destruct (Nat.eqb_spec i (tail b)) as [E|E].
  - subst i. unfold s. cbn [live]. split; [|reflexivity]. intros _. exists (length l). split; [lia|assumption].
  - rewrite F3 by assumption. split; intros (k & Hk & ->); exists k; (split; [|reflexivity]); [lia|].
    assert (k <> length l) by (intros ->; congruence). lia.
Qed.

Lemma life_construct_head b l x : rep b l -> life b (length l) -> length l < N - 1 ->
  life (construct (set_head b (decr (head b))) (head (set_head b (decr (head b)))) x) (S (length l)).
Proof.
  intros (HL & HH & HS & HT & HC) (F1 & F2 & F3) HF. unfold construct.
  pose proof (decr_lt (head b) HH) as HD.
  set (b' := set_head b (decr (head b))). set (s := mkSlot _ _).
  change (head b') with (decr (head b)).
  destruct (put_mem b' (decr (head b)) s (Ctor (decr (head b)) (negb (live (get b' (decr (head b)))))) ltac:(cbn; lia)) as (M1 & M2 & M3 & M4 & M5).
  assert (LV : live (get b' (decr (head b))) = false).
  { change (get b' (decr (head b))) with (get b (decr (head b))).
    destruct (live (get b (decr (head b)))) eqn:E; [|reflexivity]. apply F3 in E; [|assumption].
    destruct E as (k & Hk & E). rewrite <- (pos_decr (head b) k) in E by lia.
    rewrite <- (pos_0 (decr (head b))) in E at 1 by assumption. apply pos_inj in E; lia. }
  unfold life, ctors, dtors in *. rewrite M2, M4. rewrite LV in *. cbn [negb forallb event_ok filter is_ctor is_dtor length].
  change (events b') with (events b). change (head b') with (decr (head b)).
  split; [assumption|]. split; [lia|]. intros i Hi.
  cbn [negb] in M5. rewrite M5. change (get b' i) with (get b i). destruct (Nat.eqb_spec i (decr (head b))) as [E|E].
  - subst i. unfold s. cbn [live]. split; [|reflexivity]. intros _. exists 0. rewrite pos_0 by assumption. split; [lia|reflexivity].
  - rewrite F3 by assumption. split; intros (k & Hk & ->).
    + exists (S k). rewrite pos_decr by lia. split; [lia|reflexivity].
    + destruct k; [rewrite pos_0 in E by assumption; congruence|]. exists k. rewrite pos_decr by lia. split; [lia|reflexivity].
Qed.

Lemma life_set_at b l i x : rep b l -> life b (length l) -> i < length l -> life (set_at N b i x) (length l).
Proof.
  intros (HL & HH & HS & HT & HC) (F1 & F2 & F3) Hi. unfold set_at, assign, it_plus. rewrite mod_pos' by lia.
  assert (HP : pos (head b) i < N) by (apply pos_lt; lia).
  set (s := mkSlot _ _).
  destruct (put_mem b (pos (head b) i) s (Assign (pos (head b) i) (live (get b (pos (head b) i)))) ltac:(lia)) as (M1 & M2 & M3 & M4 & M5).
  assert (LV : live (get b (pos (head b) i)) = true) by (apply F3; [assumption|exists i; split; [assumption|reflexivity]]).
  unfold life, ctors, dtors in *. rewrite M2, M4. rewrite LV in *. cbn [forallb event_ok filter is_ctor is_dtor length].
  split; [assumption|]. split; [assumption|]. intros j Hj. rewrite M5.
  destruct (Nat.eqb_spec j (pos (head b) i)) as [E|E]; [|apply F3; assumption].
  subst j. unfold s. cbn [live]. rewrite LV. split; [|reflexivity]. intros _. exists i. split; [assumption|reflexivity].
Qed.

Lemma life_clear_loop fuel : forall b l, rep b l -> life b (length l) -> length l <= fuel -> life (clear_loop N fuel b) 0.
Proof.
  induction fuel as [|f IH]; intros b l R L H; cbn [clear_loop].
  - destruct l; [assumption|cbn in H; lia].
  - rewrite (rep_empty b l R). destruct l as [|x l]; [assumption|].
    apply IH with l; [apply rep_pop_front with x; assumption|apply life_pop_front with x; assumption|cbn in H; lia].
Qed.

Lemma life_step b l o l' : rep b l -> life b (length l) -> lifetime_safe (N - 1) l o = true ->
  dq_step (N - 1) l o = Some l' -> life (step N b o) (length l').
Proof.
  intros R L SF E. destruct o; cbn [lifetime_safe dq_step step] in *; try discriminate.
  - injection E as <-. unfold dq_push_back, emplace_back. rewrite (rep_full b l R).
    pose proof R as (_ & _ & HS & _). rewrite app_length. cbn [length].
    destruct (Nat.eqb_spec (length l) (N - 1)) as [E|E].
    + destruct l as [|y l]; [cbn in *; lia|]. cbn [List.tl]. rewrite Nat.add_1_r.
      apply life_construct_tail; [apply rep_pop_front with y; assumption|apply life_pop_front with y; assumption|cbn in *; lia].
    + rewrite Nat.add_1_r. apply life_construct_tail; [assumption|assumption|lia].
  - injection E as <-. apply Nat.ltb_lt in SF. unfold dq_push_front, emplace_front. rewrite (rep_full b l R).
    destruct (Nat.eqb_spec (length l) (N - 1)) as [E|E]; [lia|]. cbn [length]. apply life_construct_head; assumption.
  - destruct l as [|x l]; [discriminate|]. injection E as <-. apply life_pop_front with x; assumption.
  - injection E as <-. unfold clear. cbn [length]. apply life_clear_loop with l; try assumption. destruct R as (_ & _ & ? & _). lia.
  - destruct (Nat.ltb_spec i (length l)); [|discriminate].
    assert (l' = firstn i l ++ x :: skipn (S i) l) by congruence. subst l'.
    assert (length (firstn i l ++ x :: skipn (S i) l) = length l) as ->.
    { rewrite app_length, firstn_length, Nat.min_l by lia. cbn [length]. rewrite skipn_length. lia. }
    apply life_set_at; assumption.
Qed.

Lemma life_run ops : forall b l, rep b l -> life b (length l) -> lifetime_safe_run (N - 1) l ops = true ->
  exists l', dq_run (N - 1) l ops = Some l' /\ rep (fold_left (step N) ops b) l' /\ life (fold_left (step N) ops b) (length l').
Proof.
  induction ops as [|o r IH]; intros b l R L S; cbn [dq_run fold_left lifetime_safe_run] in *.
  - exists l. auto.
  - apply andb_prop in S. destruct S as [S1 S2].
    destruct (dq_step (N - 1) l o) as [l1|] eqn:E1; [|discriminate].
    apply IH; [eapply rep_step; eassumption|eapply life_step; eassumption|assumption].
Qed.

Lemma lifetimes_ok (ops : list (op A)) : lifetime_safe_run (N - 1) [] ops = true ->
  forallb event_ok (events (run N ops)) = true /\
  ctors (run N ops) = dtors (run N ops) + size N (run N ops) /\
  forallb event_ok (events (clear N (run N ops))) = true /\
  ctors (clear N (run N ops)) = dtors (clear N (run N ops)).
Proof.
  intros S. destruct (life_run ops (init N) [] rep_init life_init S) as (l & E & R & L).
  fold (run N ops) in *. pose proof L as (L1 & L2 & L3). split; [assumption|].
  split; [rewrite (rep_size _ _ R); assumption|].
  assert (C : life (clear N (run N ops)) 0).
  { apply life_clear_loop with l; try assumption. destruct R as (_ & _ & ? & _). lia. }
  destruct C as (C1 & C2 & _). split; [assumption|lia].
Qed.
End P.
