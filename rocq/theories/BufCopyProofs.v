(** Proofs about copies of circular buffers. *)
From Coq Require Import List Arith Bool Lia ZArith.
From Verif Require Import Bytes CircularBufferModel CircularBufferSpec CircularBufferProofs BufCopyModel BufCopySpec.
Import ListNotations.

Section P.
Context {A : Type}.
Variable N : nat.
Hypothesis HN : 2 <= N.

(** Removing changes no content *)
Definition keeps (b c : cb A) : Prop := length (mem c) = length (mem b) /\ forall j, content (get c j) = content (get b j).
Lemma keeps_refl b : keeps b b.
Proof. split; reflexivity. Qed.
Lemma keeps_trans a b c : keeps a b -> keeps b c -> keeps a c.
Proof. intros [A1 A2] [B1 B2]. split; [congruence|]. intros j. rewrite B2. apply A2. Qed.
Lemma put_out (b : cb A) i s e : length (mem b) <= i -> mem (put b i s e) = mem b.
Proof.
  unfold put. intros H. destruct (upd (mem b) i s) as [m|] eqn:E; [|reflexivity]. exfalso.
  revert i m H E. generalize (mem b). induction l as [|x l IH]; intros i m H E; [destruct i; discriminate|].
  destruct i as [|i]; cbn [length] in H; [lia|]. cbn [upd] in E. destruct (upd l i s) as [k|] eqn:K; [|discriminate].
  apply (IH i k); [lia|assumption].
Qed.
Lemma keeps_destroy b i : keeps b (destroy b i).
Proof.
  unfold destroy, keeps. destruct (Nat.lt_ge_cases i (length (mem b))) as [H|H].
  - destruct (put_mem b i (mkSlot (content (get b i)) false) (Dtor i (live (get b i))) H) as (M & _ & _ & _ & G). split; [exact M|].
    intros j. rewrite G. destruct (Nat.eqb_spec j i); [subst; reflexivity|reflexivity].
  - pose proof (put_out b i (mkSlot (content (get b i)) false) (Dtor i (live (get b i))) H) as E. split; [rewrite E; reflexivity|]. intros j. unfold get at 1. rewrite E. reflexivity.
Qed.
Lemma keeps_pop_front b : keeps b (pop_front N b).
Proof. apply (keeps_destroy b (head b)). Qed.
Lemma keeps_pop_back b : keeps b (pop_back N b).
Proof. apply (keeps_destroy b (tail b)). Qed.
Lemma keeps_clear f : forall b, keeps b (clear_loop N f b).
Proof.
  induction f as [|f IH]; intros b; [apply keeps_refl|]. cbn [clear_loop]. destruct (empty b); [apply keeps_refl|].
  eapply keeps_trans; [apply keeps_pop_front|apply IH].
Qed.
Lemma keeps_step b o : takes o = true -> keeps b (step N b o).
Proof. destruct o; intros H; try discriminate; cbn [step]; [apply keeps_pop_front|apply keeps_pop_back|apply keeps_clear]. Qed.
Lemma rep_shared m m' h t e e' (l : list A) : rep N (mkCb m h t e) l -> keeps (mkCb m h t e) (mkCb m' h t e') -> rep N (mkCb m' h t e') l.
Proof.
  intros (HL & HH & HS & HT & HC) [K1 K2]. cbn [mem head tail] in *. repeat split; cbn [mem head tail]; try assumption; [congruence|].
  intros i Hi. rewrite K2. apply HC. assumption.
Qed.

Lemma view_same (s : twin A) who b : view (back_in s who b) who = b.
Proof. unfold view, back_in, only. cbn. rewrite Bool.eqb_reflx. destruct b. reflexivity. Qed.
Lemma view_other (s : twin A) who b : view (back_in s who b) (negb who) = mkCb (mem b) (heads s (negb who)) (tails s (negb who)) (events b).
Proof. unfold view, back_in, only. cbn. rewrite Bool.eqb_negb1. reflexivity. Qed.
Definition both (s : twin A) (q : list A * list A) : Prop := rep N (view s false) (fst q) /\ rep N (view s true) (snd q).
Lemma both_step s q c q' : both s q -> takes (snd c) = true -> pair_step (N - 1) q c = Some q' -> both (tstep N s c) q'.
Proof.
  intros [B0 B1] T E. destruct c as [who o], q as [l0 l1]. cbn [fst snd] in *. unfold pair_step in E. cbn [fst snd] in E. unfold tstep. cbn [fst snd].
  pose proof (keeps_step (view s who) o T) as K.
  assert (OTHER : forall l, rep N (view s (negb who)) l -> rep N (view (back_in s who (step N (view s who) o)) (negb who)) l).
  { intros l R. rewrite view_other. eapply rep_shared; [exact R|]. destruct K as [K1 K2]. split; cbn [mem] in *; [exact K1|]. exact K2. }
  destruct who.
  - destruct (dq_step (N - 1) l1 o) as [l|] eqn:D; [|discriminate]. inversion E. subst. split; cbn [fst snd].
    + apply (OTHER l0 B0).
    + rewrite view_same. eapply rep_step; [exact HN|exact B1|exact D].
  - destruct (dq_step (N - 1) l0 o) as [l|] eqn:D; [|discriminate]. inversion E. subst. split; cbn [fst snd].
    + rewrite view_same. eapply rep_step; [exact HN|exact B0|exact D].
    + apply (OTHER l1 B1).
Qed.
Lemma both_run cs : forall s q q', both s q -> forallb (fun c => takes (snd c)) cs = true -> pair_run (N - 1) q cs = Some q' -> both (trun N s cs) q'.
Proof.
  induction cs as [|c cs IH]; intros s q q' B T E; cbn [pair_run forallb] in *; [inversion E; subst; exact B|].
  apply andb_prop in T. destruct T as [T1 T2]. destruct (pair_step (N - 1) q c) as [q1|] eqn:P; [|discriminate].
  change (trun N s (c :: cs)) with (trun N (tstep N s c) cs). eapply IH; [eapply both_step; eassumption|assumption|assumption].
Qed.
Lemma copy_reads (ops : list (op A)) l cs q : dq_run (N - 1) [] ops = Some l -> forallb (fun c => takes (snd c)) cs = true ->
  pair_run (N - 1) (l, l) cs = Some q ->
  let s := trun N (copied (run N ops)) cs in
  contents N (view s false) = map Some (fst q) /\ contents N (view s true) = map Some (snd q).
Proof.
  intros E T P s. assert (R : rep N (run N ops) l) by (unfold run; eapply rep_run; [exact HN|apply rep_init; exact HN|exact E]).
  assert (B : both (copied (run N ops)) (l, l)) by (split; cbn [fst snd]; unfold view, copied; cbn; destruct (run N ops); exact R).
  pose proof (both_run cs _ _ _ B T P) as [B0 B1]. split; apply rep_contents; assumption.
Qed.

(** size() of the copy after removals from the copy alone *)
Lemma tail_put (b : cb A) i s e : tail (put b i s e) = tail b /\ head (put b i s e) = head b.
Proof. unfold put. destruct (upd _ _ _); split; reflexivity. Qed.
Lemma tail_pop_front (b : cb A) : tail (pop_front N b) = tail b.
Proof. unfold pop_front, set_head. cbn [tail]. apply tail_put. Qed.
Lemma head_pop_front (b : cb A) : head (pop_front N b) = incr N (head b).
Proof. unfold pop_front, set_head. cbn [head]. unfold destroy. rewrite (proj2 (tail_put b _ _ _)). reflexivity. Qed.
Lemma head_pop_back (b : cb A) : head (pop_back N b) = head b.
Proof. unfold pop_back, set_tail. cbn [head]. apply tail_put. Qed.
Lemma tail_clear f : forall b : cb A, tail (clear_loop N f b) = tail b.
Proof. induction f as [|f IH]; intros b; [reflexivity|]. cbn [clear_loop]. destruct (empty b); [reflexivity|]. rewrite IH. apply tail_pop_front. Qed.
Definition from (h : nat) (s : twin A) (l : list A) : Prop :=
  heads s false = h /\ rep N (view s true) l /\ exists k, heads s true = pos N h k /\ k + length l < N.
Lemma pos_plus h k i : h < N -> k + i < N -> pos N h (k + i) = pos N (pos N h k) i.
Proof. intros H K. unfold pos. repeat match goal with |- context [?a <? ?b] => destruct (Nat.ltb_spec a b) end; lia. Qed.
Lemma from_step h s l o l' : h < N -> from h s l -> takes o = true -> dq_step (N - 1) l o = Some l' -> from h (tstep N s (true, o)) l'.
Proof.
  intros H (F & R & k & K & KL) T D. unfold tstep. cbn [fst snd]. pose proof (rep_step N HN _ _ _ _ R D) as R'.
  split; [exact F|]. split; [rewrite view_same; exact R'|].
  assert (HD : heads (back_in s true (step N (view s true) o)) true = head (step N (view s true) o)) by reflexivity. rewrite HD. clear HD.
  destruct o; try discriminate; cbn [step dq_step] in *.
  - destruct l as [|x l]; [discriminate|]. inversion D. subst l'. cbn [length] in KL. exists (S k). split; [|lia].
    rewrite head_pop_front. cbn [view head]. rewrite K. apply incr_pos; lia.
  - destruct l as [|x l]; [discriminate|]. inversion D. subst l'. exists k. split; [rewrite head_pop_back; exact K|].
    pose proof (length_removelast N HN (x :: l)) as LR. cbn [length] in KL, LR. cbn [removelast] in LR. destruct l; cbn [length] in *; lia.
  - inversion D. subst l'. exists (k + length l). split; [|cbn [length]; lia].
    destruct R' as (_ & HH & _ & TT & _). destruct R as (_ & _ & _ & RT & _). cbn [length] in TT.
    assert (E : tail (clear N (view s true)) = head (clear N (view s true))).
    { rewrite TT. apply pos_0; assumption. }
    rewrite <- E. unfold clear. rewrite tail_clear, RT. cbn [view head]. rewrite K. symmetry. apply pos_plus; lia.
Qed.
Lemma from_run h os : h < N -> forall s l l', from h s l -> forallb takes os = true -> dq_run (N - 1) l os = Some l' -> from h (trun N s (map (pair true) os)) l'.
Proof.
  intros H. induction os as [|o os IH]; intros s l l' F T D; cbn [dq_run forallb map] in *; [inversion D; subst; exact F|].
  apply andb_prop in T. destruct T as [T1 T2]. destruct (dq_step (N - 1) l o) as [l1|] eqn:E; [|discriminate].
  change (trun N s ((true, o) :: map (pair true) os)) with (trun N (tstep N s (true, o)) (map (pair true) os)). eapply IH; [eapply from_step; eassumption|assumption|assumption].
Qed.
Lemma idx_pos (b : cb A) k : head b < N -> k < N -> idx N b (pos N (head b) k) = k.
Proof.
  intros H K. unfold idx, pos. repeat match goal with |- context [?a <? ?b] => destruct (Nat.ltb_spec a b) | |- context [?a <=? ?b] => destruct (Nat.leb_spec a b) end; lia.
Qed.
Lemma from_size h s l : h < N -> (Z.of_nat N <= 2 ^ 64)%Z -> from h s l -> copy_size N s = Z.of_nat (length l).
Proof.
  intros H B (F & R & k & K & KL). unfold copy_size. destruct R as (_ & _ & _ & RT & _). cbn [view head tail] in RT.
  assert (T : tails s true = pos N h (k + length l)).
  { rewrite RT, K. symmetry. apply pos_plus; lia. }
  assert (HV : head (view s false) = h) by exact F. rewrite T, K. rewrite <- HV at 1. rewrite idx_pos by lia.
  assert (E : idx N (view s false) (pos N h k) = k) by (rewrite <- HV; apply idx_pos; lia). rewrite E.
  rewrite Z.mod_small; lia.
Qed.
Lemma copy_size_own (ops : list (op A)) l os l' : (Z.of_nat N <= 2 ^ 64)%Z -> dq_run (N - 1) [] ops = Some l -> forallb takes os = true -> dq_run (N - 1) l os = Some l' ->
  copy_size N (trun N (copied (run N ops)) (map (pair true) os)) = Z.of_nat (length l').
Proof.
  intros B E T D. assert (R : rep N (run N ops) l) by (unfold run; eapply rep_run; [exact HN|apply rep_init; exact HN|exact E]).
  pose proof R as (_ & HH & HS & _). apply (from_size (head (run N ops))); [exact HH|exact B|]. apply (from_run _ os HH _ l l'); [|exact T|exact D].
  split; [reflexivity|]. split; [unfold view, copied; cbn; destruct (run N ops); exact R|]. exists 0. split; [|lia].
  cbn [copied heads]. symmetry. apply pos_0; assumption.
Qed.

(** Ending both *)
Lemma bad_pop_front (b : cb A) : forallb event_ok (events b) = false -> forallb event_ok (events (pop_front N b)) = false.
Proof.
  intros H. unfold pop_front, destroy, put, set_head. cbn [events]. destruct (upd _ _ _); cbn [events forallb]; rewrite H; apply andb_false_r.
Qed.
Lemma bad_clear f : forall b : cb A, forallb event_ok (events b) = false -> forallb event_ok (events (clear_loop N f b)) = false.
Proof.
  induction f as [|f IH]; intros b H; [exact H|]. cbn [clear_loop]. destruct (empty b); [exact H|]. apply IH, bad_pop_front, H.
Qed.
Lemma dead_pop (b : cb A) : live (get b (head b)) = false -> forallb event_ok (events (pop_front N b)) = false.
Proof.
  intros H. unfold pop_front, destroy. rewrite H. unfold put, set_head. destruct (upd _ _ _); cbn [events forallb event_ok]; reflexivity.
Qed.
Lemma dead_clear f (b : cb A) : 0 < f -> empty b = false -> live (get b (head b)) = false -> forallb event_ok (events (clear_loop N f b)) = false.
Proof. intros F E D. destruct f as [|f]; [lia|]. cbn [clear_loop]. rewrite E. apply bad_clear, dead_pop, D. Qed.
Lemma ended_twice (ops : list (op A)) who : lifetime_safe_run (N - 1) [] ops = true -> contents N (run N ops) <> [] ->
  forallb event_ok (log (ended N (ended N (copied (run N ops)) who) (negb who))) = false.
Proof.
  intros S NE.
  destruct (life_run N HN ops (init N) [] (rep_init N HN) (life_init N HN) S) as (l & E & R & L). change (fold_left (step N) ops (init N)) with (run N ops) in *.
  rewrite (rep_contents N HN _ _ R) in NE. destruct l as [|x l]; [exfalso; apply NE; reflexivity|]. set (b := run N ops) in *. clearbody b.
  assert (V : view (copied b) who = b) by (destruct b, who; reflexivity).
  assert (LE : length (x :: l) <= N) by (destruct R as (_ & _ & HS & _); lia).
  pose proof (life_clear_loop N HN N b (x :: l) R L LE) as (_ & _ & L3).
  pose proof R as (HL & HH & HS & HT & HC).
  unfold ended at 1. cbn [log back_in]. unfold ended. rewrite V. rewrite view_other. unfold clear.
  set (c := clear_loop N N b) in *.
  assert (D : forall k, k < N -> live (get c k) = false).
  { intros k Hk. destruct (live (get c k)) eqn:G; [|reflexivity]. apply (L3 k Hk) in G. destruct G as (j & Hj & _). lia. }
  assert (HD : heads (copied b) (negb who) = head b) by reflexivity. assert (TD : tails (copied b) (negb who) = tail b) by reflexivity. rewrite HD, TD.
  clearbody c. apply dead_clear; [lia| |exact (D (head b) HH)].
  pose proof (rep_empty N HN b (x :: l) R) as EE. exact EE.
Qed.
Lemma ended_empty (ops : list (op A)) who : lifetime_safe_run (N - 1) [] ops = true -> contents N (run N ops) = [] ->
  forallb event_ok (log (ended N (ended N (copied (run N ops)) who) (negb who))) = true.
Proof.
  intros S NE.
  destruct (life_run N HN ops (init N) [] (rep_init N HN) (life_init N HN) S) as (l & E & R & L). change (fold_left (step N) ops (init N)) with (run N ops) in *.
  rewrite (rep_contents N HN _ _ R) in NE. destruct l as [|x l]; [|discriminate]. set (b := run N ops) in *. clearbody b.
  pose proof (rep_empty N HN b [] R) as EM. cbn in EM.
  assert (CL : forall f (c : cb A), empty c = true -> clear_loop N f c = c) by (intros f c H; destruct f; cbn [clear_loop]; [|rewrite H]; reflexivity).
  assert (V : view (copied b) who = b) by (destruct b, who; reflexivity).
  unfold ended at 1. cbn [log back_in]. unfold ended. rewrite V, view_other. unfold clear. rewrite (CL N b EM).
  rewrite CL by exact EM. cbn [events]. apply L.
Qed.
End P.
