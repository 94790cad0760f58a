(** Proofs about maintenance callbacks set before and after a log is opened. *)
From Coq Require Import ZArith List Bool Lia Permutation.
From Verif Require Import SerializeModel SerializeSpec SerializeProps UtcTimeModel UtcTimeSpec UtcTimeProofs Float64 QuantizedModel QuantizedProofs UtcDoubleModel LogDirModel LogModel LogSpec LogProofs MaintProofs MoModel.
Import ListNotations.
Local Open Scope nat_scope.

Lemma set_all_is r : r_start r <> utc_min -> forall calls ms, set_all calls r ms = Some (ms ++ map (fun c => mkM (fst c) (snd c) (r_start r)) calls).
Proof.
  intros N. assert (E : UtcTimeModel.eq (r_start r) utc_min = false).
  { destruct (UtcTimeModel.eq (r_start r) utc_min) eqn:E; [|reflexivity]. exfalso. apply N. unfold UtcTimeModel.eq in E. apply andb_true_iff in E as (A & B).
    apply Z.eqb_eq in A, B. destruct (r_start r) as [s n]. cbn [sec nsec] in *. unfold utc_min in *. cbn [sec nsec] in *. congruence. }
  induction calls as [|c l IH]; intros ms; cbn [set_all map]; [rewrite app_nil_r; reflexivity|].
  unfold setMaintenanceCallback. rewrite E. cbn [negb]. rewrite IH, <- app_assoc. reflexivity.
Qed.
Lemma far_not_min t : far_from_overflow t -> t <> utc_min.
Proof. intros (_ & B) ->. unfold utc_min in B. cbn [sec] in B. lia. Qed.

(** Never due *)
Lemma never_due t : far_from_overflow t -> (0 < sec t)%Z -> tq_ge t utc_max = Some false.
Proof.
  intros (N & B) P. assert (Nm : normal utc_max) by (unfold normal, utc_max; cbn [nsec]; lia).
  assert (D : diff_ok utc_max t) by (unfold diff_ok, utc_max; cbn [sec]; lia).
  destruct (tq_exact utc_max t Nm N D) as (_ & _ & E & _). rewrite E. destruct (q_exact utc_max t Nm N D) as (_ & _ & _ & L & _). rewrite L. f_equal.
  apply Z.leb_gt. unfold instant, utc_max, normal in *. cbn [sec nsec]. lia.
Qed.
Lemma maintain_never : forall ms i t tr, far_from_overflow t -> (0 < sec t)%Z -> Forall (fun m => next_call m = utc_max) ms -> maintain i ms t tr = Some (ms, tr, true).
Proof.
  induction ms as [|m ms IH]; intros i t tr T P F; cbn [maintain]; [reflexivity|]. inversion F as [|? ? Em Fm]; subst.
  rewrite Em, (never_due t T P). cbn [bind]. rewrite (IH (S i) t tr T P Fm). reflexivity.
Qed.
Section T.
Variable dual : list Z -> list Z -> list Z.
Variable junk : list Z.
Variable cbs : Z -> option (list (ty * value)).
Lemma loop_never ms : Forall (fun m => next_call m = utc_max) ms -> forall fuel l cs tr, Forall2 (content dual junk cbs) l cs ->
  Forall (Forall (fun x => far_from_overflow (fst x) /\ (0 < sec (fst x))%Z)) cs -> loop dual junk fuel cbs l ms tr = loop dual junk fuel cbs l [] tr.
Proof.
  intros Fm0. induction fuel as [|fuel IH]; intros l cs tr F Fs; cbn [loop]; [reflexivity|].
  destruct (scan 0 l MAX_TIME None) as (m, b0) eqn:Sc. apply scan_ok in Sc as [(-> & -> & Fm)|(j & s & -> & Nt & Ns & Tm & Fm)]; [reflexivity|].
  cbn [Nat.add]. destruct (UtcTimeModel.eq m MAX_TIME); [reflexivity|].
  destruct (Forall2_nth _ _ _ _ _ F Nt) as (c & Nc & C).
  inversion C as [s0 E E1 E2|s0 ts vs s' r Cb L G C' E1 E2]; subst; [apply lt_false in E; contradiction|].
  assert (Fc : Forall (fun x : utc * list value => far_from_overflow (fst x) /\ (0 < sec (fst x))%Z) ((next s, vs) :: r)) by (rewrite Forall_forall in Fs; apply Fs; apply (nth_error_In _ _ Nc)).
  inversion Fc as [|? ? (Tn & Tp) Fr]; subst. cbn [fst] in Tn, Tp.
  rewrite (maintain_never ms 0 (next s) tr Tn Tp Fm0). cbn [maintain]. rewrite Nt, Cb, G. apply IH with (cs := replace j r cs).
  - apply Forall2_replace; assumption.
  - apply Forall_forall. intros x I. apply in_replace in I as [->|I]; [exact Fr|]. rewrite Forall_forall in Fs. apply Fs. exact I.
Qed.
End T.
(** ** Callbacks set before and after *)
Definition sh (n : nat) (e : event) : event := match e with Maint i t => Maint (n + i) t | Msg k t v => Msg k t v end.
Definition un (n : nat) (m : mcb) : mcb := mkM (period m) (fun tr => act m (map (sh n) tr)) (next_call m).
Definition osh (n : nat) (o : outcome) : outcome :=
  match o with Finished tr => Finished (map (sh n) tr) | Stopped tr => Stopped (map (sh n) tr) | Undefined => Undefined | OutOfFuel tr => OutOfFuel (map (sh n) tr) end.
Lemma maintain_shift n : forall A i t tr,
  match maintain i (map (un n) A) t tr with
  | None => maintain (n + i) A t (map (sh n) tr) = None
  | Some (ms', tr', ok) => exists A', ms' = map (un n) A' /\ maintain (n + i) A t (map (sh n) tr) = Some (A', map (sh n) tr', ok)
  end.
Proof.
  induction A as [|m A IH]; intros i t tr; cbn [map maintain]; [exists []; split; reflexivity|].
  change (next_call (un n m)) with (next_call m). change (period (un n m)) with (period m). change (act (un n m) tr t) with (act m (map (sh n) tr) t).
  destruct (tq_ge t (next_call m)) as [[|]|]; cbn [bind]; [| |reflexivity].
  - destruct (add_double (next_call m) (period m)) as [nx|]; cbn [bind]; [|reflexivity].
    assert (Es : map (sh n) tr ++ [Maint (n + i) t] = map (sh n) (tr ++ [Maint i t])) by (rewrite map_app; reflexivity). rewrite Es.
    destruct (act m (map (sh n) tr) t).
    + specialize (IH (S i) t (tr ++ [Maint i t])). rewrite Nat.add_succ_r in IH.
      destruct (maintain (S i) (map (un n) A) t (tr ++ [Maint i t])) as [((ms', tr'), ok)|]; cbn [bind fst snd].
      * destruct IH as (A' & -> & ->). cbn [bind fst snd]. exists (mkM (period m) (act m) nx :: A'). split; reflexivity.
      * rewrite IH. reflexivity.
    + exists (mkM (period m) (act m) nx :: A). split; reflexivity.
  - specialize (IH (S i) t tr). rewrite Nat.add_succ_r in IH.
    destruct (maintain (S i) (map (un n) A) t tr) as [((ms', tr'), ok)|]; cbn [bind fst snd].
    + destruct IH as (A' & -> & ->). cbn [bind fst snd]. exists (m :: A'). split; reflexivity.
    + rewrite IH. reflexivity.
Qed.
Lemma maintain_both : forall B i A t tr, far_from_overflow t -> (0 < sec t)%Z -> Forall (fun m => next_call m = utc_max) B ->
  maintain i (B ++ A) t tr = match maintain (length B + i) A t tr with None => None | Some (A', tr', ok) => Some (B ++ A', tr', ok) end.
Proof.
  induction B as [|m B IH]; intros i A t tr T P F; cbn [app length Nat.add]; [destruct (maintain i A t tr) as [((a, b), c)|]; reflexivity|].
  inversion F as [|? ? Em Fm]; subst. cbn [maintain]. rewrite Em, (never_due t T P). cbn [bind]. rewrite (IH (S i) A t tr T P Fm), Nat.add_succ_r.
  destruct (maintain (S (length B + i)) A t tr) as [((a, b), c)|]; reflexivity.
Qed.
Section M.
Variable dual : list Z -> list Z -> list Z.
Variable junk : list Z.
Variable cbs : Z -> option (list (ty * value)).
Lemma loop_both B : Forall (fun m => next_call m = utc_max) B -> forall fuel A l cs tr, Forall2 (content dual junk cbs) l cs ->
  Forall (Forall (fun x => far_from_overflow (fst x) /\ (0 < sec (fst x))%Z)) cs ->
  loop dual junk fuel cbs l (B ++ A) (map (sh (length B)) tr) = osh (length B) (loop dual junk fuel cbs l (map (un (length B)) A) tr).
Proof.
  intros Fm0. induction fuel as [|fuel IH]; intros A l cs tr F Fs; cbn [loop]; [reflexivity|].
  destruct (scan 0 l MAX_TIME None) as (m, b0) eqn:Sc. apply scan_ok in Sc as [(-> & -> & Fm)|(j & s & -> & Nt & Ns & Tm & Fm)]; [reflexivity|].
  cbn [Nat.add]. destruct (UtcTimeModel.eq m MAX_TIME); [reflexivity|].
  destruct (Forall2_nth _ _ _ _ _ F Nt) as (c & Nc & C).
  inversion C as [s0 E E1 E2|s0 ts vs s' r Cb L G C' E1 E2]; subst; [apply lt_false in E; contradiction|].
  assert (Fc : Forall (fun x : utc * list value => far_from_overflow (fst x) /\ (0 < sec (fst x))%Z) ((next s, vs) :: r)) by (rewrite Forall_forall in Fs; apply Fs; apply (nth_error_In _ _ Nc)).
  inversion Fc as [|? ? (Tn & Tp) Fr]; subst. cbn [fst] in Tn, Tp.
  rewrite (maintain_both B 0 A (next s) _ Tn Tp Fm0). pose proof (maintain_shift (length B) A 0 (next s) tr) as Sh.
  destruct (maintain 0 (map (un (length B)) A) (next s) tr) as [((ms', tr'), ok)|]; [|rewrite Sh; reflexivity].
  destruct Sh as (A' & -> & ->). destruct ok; [|reflexivity]. rewrite Nt, Cb, G.
  assert (Es : map (sh (length B)) tr' ++ [Msg (key s) (next s) vs] = map (sh (length B)) (tr' ++ [Msg (key s) (next s) vs])) by (rewrite map_app; reflexivity). rewrite Es.
  apply IH with (cs := replace j r cs).
  - apply Forall2_replace; assumption.
  - apply Forall_forall. intros x I. apply in_replace in I as [->|I]; [exact Fr|]. rewrite Forall_forall in Fs. apply Fs. exact I.
Qed.
End M.
Lemma calls_shift n i tr : calls (n + i) (map (sh n) tr) = calls i tr.
Proof.
  induction tr as [|[j t|k t v] tr IH]; cbn [map sh calls]; [reflexivity| |exact IH]. rewrite IH. f_equal.
  destruct (Nat.eqb_spec (n + i) (n + j)), (Nat.eqb_spec i j); try reflexivity; lia.
Qed.
Lemma calls_below n i tr : i < n -> calls i (map (sh n) tr) = 0.
Proof.
  intros L. induction tr as [|[j t|k t v] tr IH]; cbn [map sh calls]; [reflexivity| |exact IH]. rewrite IH.
  destruct (Nat.eqb_spec i (n + j)); [lia|reflexivity].
Qed.
Lemma on_time_shift n i start p tr : on_time i start p tr -> on_time (n + i) start p (map (sh n) tr).
Proof.
  intros O a b k t vs c E A B. apply map_eq_app in E as (a0 & r0 & -> & <- & E). apply map_eq_app in E as (b0 & c0 & -> & <- & E).
  destruct c0 as [|e c0]; [discriminate|]. cbn [map] in E. destruct e as [j u|k' t' v']; [discriminate|]. cbn [sh] in E.
  assert (Em : Msg k' t' v' = Msg k t vs) by congruence. rewrite Em in *. clear E Em.
  assert (A0 : at_boundary a0).
  { destruct A as [A|(a1 & k1 & t1 & v1 & A)]; [left; destruct a0; [reflexivity|discriminate]|]. right.
    apply map_eq_app in A as (a2 & r2 & -> & _ & A). destruct r2 as [|e r2]; [discriminate|]. cbn [map] in A. destruct r2; [|discriminate].
    destruct e as [j u|k2 t2 v2]; [discriminate|]. exists a2, k2, t2, v2. reflexivity. }
  assert (B0 : only_maint b0).
  { intros e I. destruct (B (sh n e) (in_map _ _ _ I)) as (j & u & Ee). destruct e as [j' u'|k2 t2 v2]; [eauto|discriminate]. }
  destruct (O a0 b0 k t vs c0 eq_refl A0 B0) as (H1 & H2 & H3 & H4). unfold round_on_time. rewrite !calls_shift.
  split; [|split; [exact H2|split; [exact H3|exact H4]]].
  intros j u I. apply in_map_iff in I as (e & Ee & I). destruct e as [j' u'|k2 t2 v2]; [|discriminate]. cbn [sh] in Ee. assert (u' = u) by congruence. subst u'. apply (H1 j' u I).
Qed.
Section Whole.
Variable translation dual : list Z -> list Z -> list Z.
Variable junk : list Z.
Hypothesis translation_ok : three_doubles translation.
Hypothesis dual_ok : four_doubles dual.
Theorem never_called cbs ops l0 l cut ms fuel : wrun translation ops [] = Some l0 -> Permutation l0 l -> records_ok cbs ops ->
  (forall k t data, In (Log k t data) ops -> far_from_overflow t /\ (0 < sec t)%Z) -> Forall (fun m => next_call m = utc_max) ms ->
  read dual junk fuel cbs (opened dual junk cut l) ms = read dual junk fuel cbs (opened dual junk cut l) [].
Proof.
  intros W P R St Ms. destruct (perm_wrun translation dual junk translation_ok dual_ok ops l0 l W P) as (El & ND & Eb). unfold read. rewrite filter_opened.
  set (ls := filter (fun s => subscribed cbs (w_key s)) l).
  destruct (contents_exist translation dual junk translation_ok dual_ok cbs ops cut ls R) as (cs & F1 & F2).
  { intros s I. unfold ls in I. apply filter_In in I as (I & _). apply Eb. exact I. }
  { intros s I. unfold ls in I. apply filter_In in I as (_ & I). exact I. }
  apply loop_never with (cs := cs); [exact Ms|exact F1|].
  apply Forall_forall. intros c Ic. apply Forall_forall. intros x Ix. apply In_nth_error in Ic as (i & Ei).
  destruct (Forall2_nth_r _ _ _ F2 i c Ei) as (s & _ & C). pose proof (cut_stamps translation dual _ _ _ _ C Ix) as X. apply in_map_iff in X as ((t, data) & E & I). cbn [fst] in E.
  rewrite <- E. apply logged_in in I. apply (St _ _ _ I).
Qed.
Theorem both_read cbs ops l0 l cut B A fuel : wrun translation ops [] = Some l0 -> Permutation l0 l -> records_ok cbs ops ->
  (forall k t data, In (Log k t data) ops -> far_from_overflow t /\ (0 < sec t)%Z) -> Forall (fun m => next_call m = utc_max) B ->
  read dual junk fuel cbs (opened dual junk cut l) (B ++ A) = osh (length B) (read dual junk fuel cbs (opened dual junk cut l) (map (un (length B)) A)).
Proof.
  intros W P R St Ms. destruct (perm_wrun translation dual junk translation_ok dual_ok ops l0 l W P) as (El & ND & Eb). unfold read. rewrite filter_opened.
  set (ls := filter (fun s => subscribed cbs (w_key s)) l).
  destruct (contents_exist translation dual junk translation_ok dual_ok cbs ops cut ls R) as (cs & F1 & F2).
  { intros s I. unfold ls in I. apply filter_In in I as (I & _). apply Eb. exact I. }
  { intros s I. unfold ls in I. apply filter_In in I as (_ & I). exact I. }
  apply (loop_both dual junk cbs B Ms fuel A) with (tr := [])  (cs := cs); [exact F1|].
  apply Forall_forall. intros c Ic. apply Forall_forall. intros x Ix. apply In_nth_error in Ic as (i & Ei).
  destruct (Forall2_nth_r _ _ _ F2 i c Ei) as (s & _ & C). pose proof (cut_stamps translation dual _ _ _ _ C Ix) as X. apply in_map_iff in X as ((t, data) & E & I). cbn [fst] in E.
  rewrite <- E. apply logged_in in I. apply (St _ _ _ I).
Qed.
End Whole.
