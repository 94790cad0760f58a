(** Proofs about maintenance callbacks during a replay. *)
From Coq Require Import String ZArith NArith List Bool Lia Arith.
From Verif Require Import SerializeModel SerializeSpec UtcTimeModel UtcTimeSpec Float64 QuantizedModel UtcDoubleModel LogModel LogSpec LogProofs.
Import ListNotations.
Local Open Scope list_scope.
Local Open Scope nat_scope.

(** The times at which a maintenance callback is due: the start of the log, then
    one period after the other. *)
Fixpoint due (start : utc) (p : b64) (n : nat) : option utc :=
  match n with O => Some start | S m => bind (due start p m) (fun t => add_double t p) end.
Lemma calls_app i a b : calls i (a ++ b) = calls i a + calls i b.
Proof. induction a as [|[j t|k t v] a IH]; cbn [app calls]; [reflexivity|lia|exact IH]. Qed.
Lemma due_add s p n k t : due s p n = Some t -> due s p (k + n) = due t p k.
Proof. intros E. induction k as [|k IH]; [exact E|]. cbn [Nat.add due]. rewrite IH. reflexivity. Qed.

(** One round of maintenance callbacks. *)
Lemma maintain_ok : forall ms i0 t tr ms' tr' ok, maintain i0 ms t tr = Some (ms', tr', ok) -> exists b, tr' = tr ++ b /\
  (forall e, In e b -> exists j, e = Maint j t /\ i0 <= j < i0 + length ms) /\ (ok = false -> b <> []) /\
  forall j m, nth_error ms j = Some m -> calls (i0 + j) b <= 1 /\ (calls (i0 + j) b = 1 -> tq_ge t (next_call m) = Some true) /\
    (ok = true -> calls (i0 + j) b = 0 -> tq_ge t (next_call m) = Some false) /\
    exists m', nth_error ms' j = Some m' /\ period m' = period m /\ act m' = act m /\ due (next_call m) (period m) (calls (i0 + j) b) = Some (next_call m').
Proof.
  induction ms as [|m ms IH]; intros i0 t tr ms' tr' ok E; cbn [maintain] in E.
  - injection E as <- <- <-. exists []. rewrite app_nil_r. split; [reflexivity|]. split; [intros e []|]. split; [discriminate|]. intros [|j] m X; discriminate X.
  - destruct (tq_ge t (next_call m)) as [d|] eqn:D; cbn [bind] in E; [|discriminate]. destruct d.
    + destruct (add_double (next_call m) (period m)) as [n|] eqn:A; cbn [bind] in E; [|discriminate]. destruct (act m tr t).
      * destruct (maintain (S i0) ms t (tr ++ [Maint i0 t])) as [((ms1, tr1), ok1)|] eqn:M; cbn [bind fst snd] in E; [|discriminate].
        assert (ms' = mkM (period m) (act m) n :: ms1) by congruence. assert (tr' = tr1) by congruence. assert (ok = ok1) by congruence. subst. clear E.
        apply IH in M as (b & -> & B1 & B2 & B3). exists (Maint i0 t :: b). rewrite <- app_assoc. split; [reflexivity|]. split.
        { intros e [<-|I]; [exists i0; split; [reflexivity|cbn [length]; lia]|]. destruct (B1 e I) as (j & -> & J). exists j. split; [reflexivity|cbn [length]; lia]. }
        split; [discriminate|]. intros [|j] m0 X; cbn [nth_error] in X.
        -- injection X as <-. cbn [calls nth_error]. rewrite Nat.add_0_r, Nat.eqb_refl.
           assert (Z : calls i0 b = 0).
           { clear - B1. induction b as [|e b IH]; [reflexivity|]. destruct (B1 e (or_introl eq_refl)) as (j & -> & J). cbn [calls]. destruct (Nat.eqb_spec i0 j); [lia|]. apply IH. intros e I. apply B1. right. exact I. }
           rewrite Z. split; [lia|]. split; [intros _; exact D|]. split; [lia|]. eexists. split; [reflexivity|]. cbn [period act next_call]. split; [reflexivity|]. split; [reflexivity|].
           cbn [due]. cbn [bind]. exact A.
        -- cbn [calls nth_error]. destruct (Nat.eqb_spec (i0 + S j) i0); [lia|]. replace (i0 + S j) with (S i0 + j) by lia. cbn [Nat.add]. apply (B3 j m0 X).
      * assert (ms' = mkM (period m) (act m) n :: ms) by congruence. assert (tr' = tr ++ [Maint i0 t]) by congruence. assert (ok = false) by congruence. subst. clear E.
        exists [Maint i0 t]. split; [reflexivity|]. split; [intros e [<-|[]]; exists i0; split; [reflexivity|cbn [length]; lia]|]. split; [discriminate|].
        intros [|j] m0 X; cbn [nth_error] in X; cbn [calls nth_error].
        -- injection X as <-. rewrite !Nat.add_0_r, Nat.eqb_refl. cbn [Nat.add]. split; [lia|]. split; [intros _; exact D|]. split; [discriminate|]. eexists. split; [reflexivity|].
           cbn [period act next_call]. split; [reflexivity|]. split; [reflexivity|]. cbn [due bind]. exact A.
        -- destruct (Nat.eqb_spec (i0 + S j) i0); [lia|]. cbn [Nat.add]. split; [lia|]. split; [discriminate|]. split; [discriminate|]. exists m0.
           split; [exact X|]. split; [reflexivity|]. split; reflexivity.
    + destruct (maintain (S i0) ms t tr) as [((ms1, tr1), ok1)|] eqn:M; cbn [bind fst snd] in E; [|discriminate].
      assert (ms' = m :: ms1) by congruence. assert (tr' = tr1) by congruence. assert (ok = ok1) by congruence. subst. clear E.
      apply IH in M as (b & -> & B1 & B2 & B3). exists b. split; [reflexivity|]. split.
      { intros e I. destruct (B1 e I) as (j & -> & J). exists j. split; [reflexivity|cbn [length]; lia]. }
      split; [exact B2|]. intros [|j] m0 X; cbn [nth_error] in X.
      * injection X as <-. cbn [nth_error]. rewrite Nat.add_0_r.
        assert (Z : calls i0 b = 0).
        { clear - B1. induction b as [|e b IH]; [reflexivity|]. destruct (B1 e (or_introl eq_refl)) as (j & -> & J). cbn [calls]. destruct (Nat.eqb_spec i0 j); [lia|]. apply IH. intros e I. apply B1. right. exact I. }
        rewrite Z. split; [lia|]. split; [discriminate|]. split; [intros _ _; exact D|]. exists m. split; [reflexivity|]. split; [reflexivity|]. split; reflexivity.
      * cbn [nth_error]. replace (i0 + S j) with (S i0 + j) by lia. apply (B3 j m0 X).
Qed.

(** Cutting a trace into records. *)
Lemma boundary_unique : forall a b a' b', a ++ b = a' ++ b' -> at_boundary a -> at_boundary a' -> only_maint b -> only_maint b' -> a = a' /\ b = b'.
Proof.
  intros a b a' b' E A A' B B'.
  assert (W : forall a b a' b', a ++ b = a' ++ b' -> at_boundary a -> only_maint b' -> length a <= length a').
  { clear. intros a b a' b' E A B'. destruct (Nat.le_gt_cases (length a) (length a')) as [L|L]; [exact L|]. exfalso.
    destruct A as [->|(a0 & k & t & v & ->)]; [cbn in L; lia|]. rewrite app_length in L. cbn [length] in L.
    assert (X : nth_error (a' ++ b') (length a0) = Some (Msg k t v)).
    { rewrite <- E, <- app_assoc, nth_error_app2 by lia. rewrite Nat.sub_diag. reflexivity. }
    rewrite nth_error_app2 in X by lia. apply nth_error_In in X. destruct (B' _ X) as (i & t' & Y). discriminate. }
  assert (L : length a = length a') by (apply Nat.le_antisymm; [apply (W a b a' b'); assumption|apply (W a' b' a b); [symmetry; assumption|assumption..]]).
  clear - E L. revert a' E L. induction a as [|x a IH]; intros [|x' a'] E L; try discriminate; [auto|].
  cbn [app] in E. destruct (IH a') as (-> & ->); [congruence|cbn in L; lia|]. split; [congruence|reflexivity].
Qed.
Lemma split_msg : forall (tr b0 a b c : list event) k t v, tr ++ b0 = a ++ b ++ Msg k t v :: c -> only_maint b0 -> exists c', tr = a ++ b ++ Msg k t v :: c'.
Proof.
  intros tr b0 a b c k t v E M.
  assert (L : length (a ++ b) < length tr).
  { destruct (Nat.lt_ge_cases (length (a ++ b)) (length tr)) as [L|L]; [exact L|]. exfalso.
    assert (X : nth_error (tr ++ b0) (length (a ++ b)) = Some (Msg k t v)).
    { rewrite E, app_assoc, nth_error_app2 by lia. rewrite Nat.sub_diag. reflexivity. }
    rewrite nth_error_app2 in X by lia. apply nth_error_In in X. destruct (M _ X) as (i & t' & Y). discriminate. }
  enough (X : exists c', tr = (a ++ b) ++ Msg k t v :: c') by (destruct X as (c' & ->); exists c'; symmetry; apply app_assoc).
  rewrite app_assoc in E. revert L E. generalize (a ++ b). clear. intros p. revert tr. induction p as [|x p IH]; intros [|y tr] L E; cbn [length] in L; try lia.
  - exists tr. cbn [app] in E. injection E as -> _. reflexivity.
  - cbn [app] in E. destruct (IH tr) as (c' & ->); [lia|congruence|]. exists c'. cbn [app]. congruence.
Qed.

Lemma maintain_length : forall ms i t tr ms' tr' ok, maintain i ms t tr = Some (ms', tr', ok) -> length ms' = length ms.
Proof.
  induction ms as [|m ms IH]; intros i t tr ms' tr' ok E; cbn [maintain] in E; [congruence|].
  destruct (tq_ge t (next_call m)) as [[|]|]; cbn [bind] in E; [| |discriminate].
  - destruct (add_double (next_call m) (period m)) as [n|]; cbn [bind] in E; [|discriminate]. destruct (act m tr t).
    + destruct (maintain (S i) ms t (tr ++ [Maint i t])) as [((a, b), c)|] eqn:M; cbn [bind fst snd] in E; [|discriminate].
      assert (X : ms' = mkM (period m) (act m) n :: a) by congruence. rewrite X. cbn [length]. rewrite (IH _ _ _ _ _ _ M). reflexivity.
    + assert (X : ms' = mkM (period m) (act m) n :: ms) by congruence. rewrite X. reflexivity.
  - destruct (maintain (S i) ms t tr) as [((a, b), c)|] eqn:M; cbn [bind fst snd] in E; [|discriminate].
    assert (X : ms' = m :: a) by congruence. rewrite X. cbn [length]. rewrite (IH _ _ _ _ _ _ M). reflexivity.
Qed.
Section R.
Variable dual : list Z -> list Z -> list Z.
Variable junk : list Z.
Variable cbs : Z -> option (list (ty * value)).
(** A stream listed in the manifest whose file is missing: reading never ends. *)
Lemma missing_loops k0 k ts : cbs k = Some ts -> cbs k0 = None -> forall fuel,
  read dual junk fuel cbs [open_stream dual junk k0 k None] [] = OutOfFuel [].
Proof.
  intros Ck C0 fuel. unfold read. cbn [filter open_stream mapkey]. rewrite Ck.
  induction fuel as [|f IH]; [reflexivity|]. cbn [loop scan next].
  change (lt (mkUtc 0 0) MAX_TIME) with true. cbv iota.
  change (UtcTimeModel.eq (mkUtc 0 0) MAX_TIME) with false. cbn [maintain nth_error key]. rewrite C0. exact IH.
Qed.
End R.

(** ** In nanoseconds *)
From Coq Require Import Reals Lra.
From Flocq Require Import Core.Raux Core.Zaux IEEE754.BinarySingleNaN.
From Verif Require Import UtcTimeProofs QuantizedProofs UtcDoubleProofs.

Definition step_ns (p : b64) : Z := Ztrunc (rnd (val p * e9)).
Lemma step_range p : period_ok p -> (0 <= step_ns p < 2 ^ 33 * 1000000000)%Z.
Proof.
  intros (_ & A & B). unfold step_ns. assert (E9 : e9 = IZR 1000000000) by (unfold e9; reflexivity).
  assert (P0 : (0 <= val p * e9)%R) by (rewrite E9; apply Rmult_le_pos; [exact A|apply IZR_le; lia]).
  split.
  - rewrite <- (Ztrunc_IZR 0). apply Ztrunc_le. rewrite <- (Generic_fmt.round_0 radix2 (SpecFloat.fexp 53 1024) (round_mode mode_NE)). apply rnd_mono. exact P0.
  - pose proof (nanos_close (val p)) as C. assert (U : (val p * e9 < IZR (2 ^ 32 * 1000000000))%R).
    { rewrite E9, mult_IZR. apply Rmult_lt_compat_r; [apply IZR_lt; lia|exact B]. }
    rewrite (Rabs_right (val p * e9)) in C by lra.
    assert (W : (bpow radix2 (-53) <= / 4)%R) by (change (/ 4)%R with (bpow radix2 (-2)); apply bpow_le; lia).
    assert (V : (val p * e9 * bpow radix2 (-53) <= val p * e9 * / 4)%R) by (apply Rmult_le_compat_l; assumption).
    apply lt_IZR. apply Rabs_def2 in C as (C & _).
    assert (K : (1 + IZR (2 ^ 32 * 1000000000) * / 4 + IZR (2 ^ 32 * 1000000000) < IZR (2 ^ 33 * 1000000000))%R).
    { replace (2 ^ 33 * 1000000000)%Z with (2 * (2 ^ 32 * 1000000000))%Z by lia. rewrite (mult_IZR 2).
      assert (X : (4 < IZR (2 ^ 32 * 1000000000))%R) by (apply IZR_lt; lia). lra. }
    lra.
Qed.
Lemma step_close p : period_ok p -> (Rabs (IZR (step_ns p) - val p * 1000000000) < 1 + val p * 1000000000 * / IZR (2 ^ 53))%R.
Proof. intros (_ & A & _). pose proof (nanos_close (val p)) as C. rewrite (Rabs_right (val p * e9)) in C; [exact C|]. apply Rle_ge, Rmult_le_pos; [exact A|unfold e9; lra]. Qed.
Definition call_ok (m : mcb) : Prop := normal (next_call m) /\ (- 2 ^ 60 <= sec (next_call m) < 2 ^ 61)%Z /\ period_ok (period m).
Lemma tq_due t d : far_from_overflow t -> normal d -> (- 2 ^ 60 <= sec d < 2 ^ 61)%Z -> tq_ge t d = Some (instant d - instant t <=? 50000)%Z.
Proof.
  intros (Nt & Bt) Nd Bd. assert (D : diff_ok d t) by (unfold diff_ok; lia). destruct (tq_exact d t Nd Nt D) as (_ & _ & E & _). rewrite E.
  destruct (q_exact d t Nd Nt D) as (_ & _ & _ & L & _). exact L.
Qed.
Lemma step_add m : call_ok m -> exists r, add_double (next_call m) (period m) = Some r /\ normal r /\ instant r = (instant (next_call m) + step_ns (period m))%Z.
Proof.
  intros (N & B & F & P). apply add_double_exact; [exact N|exact F| |lia]. rewrite Rabs_right; [apply P|apply Rle_ge, P].
Qed.
Lemma maintain_defined : forall ms i t tr, far_from_overflow t -> Forall call_ok ms -> maintain i ms t tr <> None.
Proof.
  induction ms as [|m ms IH]; intros i t tr T F; cbn [maintain]; [discriminate|]. inversion F as [|? ? Cm Fm]; subst.
  pose proof Cm as Cm'. destruct Cm' as (N & B & _). rewrite (tq_due t (next_call m) T N B). cbn [bind]. destruct (instant (next_call m) - instant t <=? 50000)%Z.
  - destruct (step_add m Cm) as (r & -> & _). cbn [bind]. destruct (act m tr t); [|discriminate].
    specialize (IH (S i) t (tr ++ [Maint i t]) T Fm). destruct (maintain (S i) ms t (tr ++ [Maint i t])); [discriminate|congruence].
  - specialize (IH (S i) t tr T Fm). destruct (maintain (S i) ms t tr); [discriminate|congruence].
Qed.

Section T.
Variable dual : list Z -> list Z -> list Z.
Variable junk : list Z.
Variable cbs : Z -> option (list (ty * value)).
Variable ms0 : list mcb.
Hypothesis ms0_ok : forall m, In m ms0 -> far_from_overflow (next_call m) /\ period_ok (period m).
Definition timed (tr : list event) : Prop := forall i m, nth_error ms0 i = Some m -> on_time i (instant (next_call m)) (step_ns (period m)) tr.
Definition timed_round (a b : list event) (t : utc) (complete : bool) : Prop :=
  forall i m, nth_error ms0 i = Some m -> round_on_time i (instant (next_call m)) (step_ns (period m)) a b t complete.
Definition timed_state (tr : list event) (ms : list mcb) : Prop :=
  length ms = length ms0 /\ forall i m0, nth_error ms0 i = Some m0 -> exists m, nth_error ms i = Some m /\ period m = period m0 /\
    normal (next_call m) /\ (- 2 ^ 60 <= sec (next_call m) < 2 ^ 61)%Z /\
    instant (next_call m) = (instant (next_call m0) + Z.of_nat (calls i tr) * step_ns (period m0))%Z.
Definition timed_end (o : outcome) : Prop :=
  match o with
  | Undefined => False
  | Finished tr | OutOfFuel tr => timed tr
  | Stopped tr => timed tr /\ exists a b t, tr = a ++ b /\ at_boundary a /\ only_maint b /\ b <> [] /\ timed_round a b t false
  end.
Lemma loop_timed : forall fuel l cs ms tr, Forall2 (content dual junk cbs) l cs -> Forall (Forall (fun x => far_from_overflow (fst x))) cs ->
  at_boundary tr -> timed tr -> timed_state tr ms -> timed_end (loop dual junk fuel cbs l ms tr).
Proof.
  induction fuel as [|fuel IH]; intros l cs ms tr F Fs A T S; cbn [loop]; [exact T|].
  destruct (scan 0 l MAX_TIME None) as (m, b0) eqn:Sc. apply scan_ok in Sc as [(-> & -> & Fm)|(j & s & -> & Nt & Ns & Tm & Fm)]; [exact T|].
  cbn [Nat.add]. replace (UtcTimeModel.eq m MAX_TIME) with false.
  2: { symmetry. unfold UtcTimeModel.eq. apply andb_false_iff. unfold tlt in Tm. destruct Tm as [Tm|(T1 & T2)]; [left|right]; apply Z.eqb_neq; lia. }
  destruct (Forall2_nth _ _ _ _ _ F Nt) as (c & Nc & C).
  inversion C as [s0 E E1 E2|s0 ts vs s' r Cb L G C' E1 E2]; subst; [apply lt_false in E; contradiction|].
  assert (Fc : Forall (fun x : utc * list value => far_from_overflow (fst x)) ((next s, vs) :: r)) by (rewrite Forall_forall in Fs; apply Fs; apply (nth_error_In _ _ Nc)).
  inversion Fc as [|? ? Tn Fr]; subst. cbn [fst] in Tn. destruct S as (Ls & S).
  assert (Cms : Forall call_ok ms).
  { apply Forall_forall. intros x I. apply In_nth_error in I as (i & Ei). assert (Li : i < length ms0) by (rewrite <- Ls; apply nth_error_Some; congruence).
    destruct (nth_error ms0 i) as [m0|] eqn:E0; [|apply nth_error_None in E0; lia]. destruct (S i m0 E0) as (m & Em & Ep & N & B & _).
    assert (m = x) by congruence. subst x. split; [exact N|]. split; [exact B|]. rewrite Ep. apply ms0_ok. apply (nth_error_In _ _ E0). }
  pose proof (maintain_defined ms 0 (next s) tr Tn Cms) as Df. destruct (maintain 0 ms (next s) tr) as [((ms', tr'), ok)|] eqn:M; [clear Df|congruence].
  pose proof (maintain_length _ _ _ _ _ _ _ M) as Lm. apply maintain_ok in M as (b & -> & B1 & B2 & B3).
  assert (Ob : only_maint b) by (intros e I; destruct (B1 e I) as (i & -> & _); eauto).
  assert (R : timed_round tr b (next s) ok).
  { intros i m0 Ei. destruct (S i m0 Ei) as (mi & Em & Ep & N & B & I). destruct (B3 i mi Em) as (C1 & C2 & C3 & _). cbn [Nat.add] in *.
    rewrite (tq_due _ _ Tn N B) in C2, C3.
    split; [intros k u Iu; destruct (B1 _ Iu) as (k' & Eu & _); congruence|]. split; [exact C1|]. split.
    - intros X. specialize (C2 X). assert (Y : (instant (next_call mi) - instant (next s) <=? 50000)%Z = true) by congruence. lia.
    - intros X1 X2. specialize (C3 X1 X2). assert (Y : (instant (next_call mi) - instant (next s) <=? 50000)%Z = false) by congruence. lia. }
  assert (S' : timed_state (tr ++ b) ms').
  { split; [lia|]. intros i m0 Ei. destruct (S i m0 Ei) as (mi & Em & Ep & N & B & I). destruct (B3 i mi Em) as (C1 & C2 & _ & m' & E' & P' & _ & D'). cbn [Nat.add] in *.
    exists m'. split; [exact E'|]. split; [congruence|]. rewrite calls_app. destruct (calls i b) as [|[|n]] eqn:Cb1; [| |lia].
    - cbn [due] in D'. assert (X : next_call m' = next_call mi) by congruence. rewrite X, Nat.add_0_r. auto.
    - specialize (C2 eq_refl). rewrite (tq_due _ _ Tn N B) in C2. cbn [due bind] in D'.
      assert (Cm : call_ok mi) by (rewrite Forall_forall in Cms; apply Cms; apply (nth_error_In _ _ Em)).
      destruct (step_add mi Cm) as (r0 & Er & Nr & Ir). assert (r0 = next_call m') by congruence. subst r0.
      assert (Y : (instant (next_call mi) - instant (next s) <=? 50000)%Z = true) by congruence. apply Z.leb_le in Y.
      split; [exact Nr|]. rewrite Ep in Ir. rewrite Ir, I. split; [|lia].
      assert (Sr : (0 <= step_ns (period m0) < 2 ^ 33 * 1000000000)%Z) by (apply step_range; apply ms0_ok; apply (nth_error_In _ _ Ei)).
      destruct Tn as (Nn & Bn). unfold instant, normal in *. lia. }
  assert (T' : forall k v, ok = true -> timed (tr ++ b ++ [Msg k (next s) v])).
  { intros k v Eo i m0 Ei a0 b0 k0 t0 v0 c0 E A0 B0. destruct (@exists_last _ (Msg k0 t0 v0 :: c0)) as (c1 & x & Ex); [discriminate|].
    destruct c1 as [|y c1].
    - cbn [app] in Ex. assert (c0 = []) by congruence. assert (x = Msg k0 t0 v0) by congruence. subst c0 x.
      rewrite !app_assoc in E. apply app_inj_tail in E as (E & Em). assert (t0 = next s) by congruence. subst t0. apply boundary_unique in E as (<- & <-); try assumption.
      rewrite Eo in R. exact (R i m0 Ei).
    - cbn [app] in Ex. assert (y = Msg k0 t0 v0) by congruence. subst y.
      assert (Ec : tr ++ b = a0 ++ b0 ++ Msg k0 t0 v0 :: c1).
      { rewrite Ex in E. change ((Msg k0 t0 v0 :: c1 ++ [x])) with ((Msg k0 t0 v0 :: c1) ++ [x]) in E. rewrite !app_assoc in E. apply app_inj_tail in E as (E & _). rewrite E, app_assoc. reflexivity. }
      apply split_msg in Ec as (c' & Ec); [|exact Ob]. apply (T i m0 Ei a0 b0 k0 t0 v0 c' Ec A0 B0). }
  destruct ok.
  - rewrite Nt, Cb, G. rewrite <- app_assoc. apply IH with (cs := replace j r cs).
    + apply Forall2_replace; assumption.
    + apply Forall_forall. intros x I. apply in_replace in I as [->|I]; [exact Fr|]. rewrite Forall_forall in Fs. apply Fs. exact I.
    + right. exists (tr ++ b), (key s), (next s), vs. rewrite app_assoc. reflexivity.
    + apply T'. reflexivity.
    + rewrite app_assoc. destruct S' as (S1 & S2). split; [exact S1|]. intros i m0 Ei. destruct (S2 i m0 Ei) as (m1 & E3 & E4 & E5 & E6 & E7). exists m1.
      split; [exact E3|]. split; [exact E4|]. split; [exact E5|]. split; [exact E6|]. rewrite calls_app. cbn [calls]. rewrite Nat.add_0_r. exact E7.
  - split.
    + intros i m0 Ei a0 b0 k0 t0 v0 c0 E A0 B0. apply split_msg in E as (c' & Ec); [|exact Ob]. apply (T i m0 Ei a0 b0 k0 t0 v0 c' Ec A0 B0).
    + exists tr, b, (next s). split; [reflexivity|]. split; [exact A|]. split; [exact Ob|]. split; [apply B2; reflexivity|exact R].
Qed.
End T.

(** ** Whole logs *)
From Coq Require Import Permutation Sorted.
Section Whole.
Variable translation dual : list Z -> list Z -> list Z.
Variable junk : list Z.
Hypothesis translation_ok : forall r d, length (translation r d) = 3 /\ Forall (in_range FP64) (translation r d).
Hypothesis dual_ok : forall q t, length (dual q t) = 4 /\ Forall (in_range FP64) (dual q t).

Lemma size_app a b : size_of translation (a ++ b) = size_of translation a + size_of translation b.
Proof. clear translation_ok dual_ok. induction a as [|r a IH]; [reflexivity|]. cbn [app size_of]. rewrite IH. lia. Qed.
Lemma size_firstn n rs : size_of translation (firstn n rs) <= size_of translation rs.
Proof. clear translation_ok dual_ok. pose proof (size_app (firstn n rs) (skipn n rs)) as E. rewrite firstn_skipn in E. lia. Qed.
Lemma cut_full n rs c : size_of translation rs <= n -> cut_records translation dual n rs c -> Forall2 (same_record translation dual) rs c.
Proof.
  clear translation_ok dual_ok. intros L (c1 & e & -> & L1 & Sr & _ & H4 & H5 & _). assert (Ln : length c1 = length rs).
  { destruct (Nat.lt_ge_cases (length c1) (length rs)) as [X|X]; [|lia]. specialize (H4 X). pose proof (size_firstn (S (length c1)) rs). lia. }
  destruct H5 as [->|(r & vs & X & _)].
  - rewrite app_nil_r. rewrite Ln, firstn_all in Sr. exact Sr.
  - exfalso. assert (length c1 < length rs) by (apply nth_error_Some; congruence). lia.
Qed.
Lemma cut_stamps n rs c x : cut_records translation dual n rs c -> In x c -> In (fst x) (map fst rs).
Proof.
  clear translation_ok dual_ok. intros (c1 & e & -> & _ & S & _ & _ & H5 & _) I. apply in_app_or in I as [I|I].
  - assert (X : In (fst x) (map fst (firstn (length c1) rs))).
    { clear - S I. revert I. generalize dependent (firstn (length c1) rs). clear rs. induction c1 as [|y c1 IH]; intros rs S I; [destruct I|].
      inversion S as [|r ? ? ? (E & _) S']; subst. destruct I as [->|I]; [left; symmetry; exact E|right; apply IH; assumption]. }
    rewrite <- (firstn_skipn (length c1) rs), map_app. apply in_or_app. left. exact X.
  - destruct H5 as [->|(r & vs & X & -> & _)]; [destruct I|]. destruct I as [<-|[]]. cbn [fst]. apply in_map. apply (nth_error_In _ _ X).
Qed.
Lemma logged_stamp cbs ops k t : records_ok cbs ops -> cbs k <> None -> In t (map fst (logged k ops)) -> stamp_ok t.
Proof.
  clear translation_ok dual_ok. intros R Ck I. apply in_map_iff in I as ((t', data) & <- & I). apply logged_in in I. destruct (cbs k) as [ts|] eqn:E; [|congruence].
  apply (R k t' data ts I E).
Qed.
Lemma sorted_tle l : (forall t, In t l -> normal t) -> StronglySorted tle l <-> nondecreasing (map instant l).
Proof.
  clear translation_ok dual_ok. induction l as [|t l IH]; intros N; [split; constructor|].
  assert (N' : forall t, In t l -> normal t) by (intros x I; apply N; right; exact I). specialize (IH N').
  assert (Q : forall x, In x l -> (tle t x <-> (instant t <= instant x)%Z)).
  { intros x I. pose proof (N t (or_introl eq_refl)) as A. pose proof (N' x I) as B. unfold tle, tlt, normal, instant in *. lia. }
  split; intros H; inversion H as [|? ? S F]; subst; constructor.
  - apply IH. exact S.
  - apply Forall_forall. intros y I. apply in_map_iff in I as (x & <- & I). apply Q; [exact I|]. rewrite Forall_forall in F. apply F. exact I.
  - apply IH. exact S.
  - apply Forall_forall. intros x I. apply Q; [exact I|]. rewrite Forall_forall in F. apply F. apply in_map. exact I.
Qed.
Lemma in_messages tr k t v : In (k, t, v) (messages tr) -> In (t, v) (delivered k tr).
Proof.
  clear translation_ok dual_ok. induction tr as [|[i u|k' t' v'] tr IH]; cbn [messages delivered]; [intros []|exact IH|].
  intros [E|I].
  - assert (k' = k) by congruence. rewrite H, Z.eqb_refl. left. congruence.
  - destruct (k' =? k)%Z; [right|]; apply IH; exact I.
Qed.
Lemma perm_wrun ops l0 l : wrun translation ops [] = Some l0 -> Permutation l0 l -> (forall s, In s l <-> In s l0) /\ NoDup (map w_key l) /\
  (forall s, In s l -> w_bytes s = bytes_of translation (logged (w_key s) ops)).
Proof.
  intros W P. apply (wrun_ok translation dual junk translation_ok dual_ok) in W as (ND & F & _). split.
  - intros s. split; intros I; [eapply Permutation_in; [symmetry; exact P|exact I]|eapply Permutation_in; eassumption].
  - split; [eapply Permutation_NoDup; [apply Permutation_map; exact P|exact ND]|]. intros s I. rewrite Forall_forall in F. apply F. eapply Permutation_in; [symmetry; exact P|exact I].
Qed.
Lemma reopened_is ops l : (forall s, In s l -> w_bytes s = bytes_of translation (logged (w_key s) ops)) ->
  reopened dual junk l = opened dual junk (fun k => size_of translation (logged k ops)) l.
Proof.
  intros E. unfold reopened, opened. apply map_ext_in. intros s I. rewrite firstn_all2; [reflexivity|]. rewrite (E s I), (bytes_size translation dual junk translation_ok dual_ok). lia.
Qed.

(** Replaying a complete log. *)
Theorem replay_whole cbs ops l0 l ms : wrun translation ops [] = Some l0 -> Permutation l0 l -> records_ok cbs ops ->
  exists n, forall fuel, n <= fuel ->
  match read dual junk fuel cbs (reopened dual junk l) ms with
  | OutOfFuel _ => False
  | Undefined => ms <> []
  | Finished tr => forall k, (cbs k = None -> delivered k tr = []) /\ (cbs k <> None -> Forall2 (same_record translation dual) (logged k ops) (delivered k tr))
  | Stopped tr => forall k, (cbs k = None -> delivered k tr = []) /\
      (cbs k <> None -> exists rest, Forall2 (same_record translation dual) (logged k ops) (delivered k tr ++ rest))
  end.
Proof.
  intros W P R. destruct (perm_wrun ops l0 l W P) as (El & ND & Eb).
  destruct (replay_ok translation dual junk translation_ok dual_ok cbs ops l0 l (fun k => size_of translation (logged k ops)) ms W El ND R) as (n & H).
  exists n. intros fuel Lf. destruct (H fuel Lf) as (H1 & _). rewrite (reopened_is ops l Eb).
  destruct (read dual junk fuel cbs _ ms) as [tr|tr| |tr]; try exact H1.
  - intros k. destruct (H1 k) as (A & B). split; [exact A|]. intros Ck. destruct (B Ck) as (c & -> & C). apply (cut_full _ _ _ (le_n _) C).
  - intros k. destruct (H1 k) as (A & B). split; [exact A|]. intros Ck. destruct (B Ck) as (c & C & r & ->). exists r. apply (cut_full _ _ _ (le_n _) C).
Qed.
(** The order, complete or not. *)
Theorem replay_sorted cbs ops l0 l cut ms : wrun translation ops [] = Some l0 -> Permutation l0 l -> records_ok cbs ops ->
  (forall k, cbs k <> None -> nondecreasing (map (fun r => instant (fst r)) (logged k ops))) ->
  exists n, forall fuel, n <= fuel ->
  match read dual junk fuel cbs (opened dual junk cut l) ms with
  | Finished tr | Stopped tr => nondecreasing (times tr)
  | Undefined => ms <> []
  | OutOfFuel _ => False
  end.
Proof.
  intros W P R Sd. destruct (perm_wrun ops l0 l W P) as (El & ND & Eb).
  destruct (replay_ok translation dual junk translation_ok dual_ok cbs ops l0 l cut ms W El ND R) as (n & H).
  exists n. intros fuel Lf. destruct (H fuel Lf) as (H1 & H2). clear H.
  assert (Hs : forall k, cbs k <> None -> StronglySorted tle (map fst (logged k ops))).
  { intros k Ck. apply sorted_tle; [intros t I; apply (logged_stamp cbs ops k t R Ck I)|]. rewrite map_map. apply Sd. exact Ck. }
  specialize (H2 Hs).
  assert (Q : forall tr, (forall k, (cbs k = None -> delivered k tr = []) /\ (cbs k <> None -> exists c, (forall x, In x (delivered k tr) -> In x c) /\ cut_records translation dual (cut k) (logged k ops) c)) ->
    StronglySorted tle (map (fun m => snd (fst m)) (messages tr)) -> nondecreasing (times tr)).
  { intros tr D S. apply sorted_tle in S; [unfold times; rewrite map_map in S; exact S|]. intros t I. apply in_map_iff in I as (((k, t'), v) & <- & I). cbn [fst snd].
    apply in_messages in I. destruct (D k) as (D1 & D2). destruct (cbs k) as [ts|] eqn:E; [|rewrite (D1 eq_refl) in I; destruct I].
    destruct (D2 ltac:(discriminate)) as (c & Dc & C). apply Dc in I. pose proof (cut_stamps _ _ _ _ C I) as X. cbn [fst] in X.
    apply (logged_stamp cbs ops k t' R); [congruence|exact X]. }
  destruct (read dual junk fuel cbs (opened dual junk cut l) ms) as [tr|tr| |tr]; [| |exact H1|exact H1].
  - apply Q; [|exact H2]. intros k. destruct (H1 k) as (A & B). split; [exact A|]. intros Ck. destruct (B Ck) as (c & -> & C). exists (delivered k tr). auto.
  - apply Q; [|exact H2]. intros k. destruct (H1 k) as (A & B). split; [exact A|]. intros Ck. destruct (B Ck) as (c & C & r & ->). eexists. split; [|exact C]. intros x I. apply in_or_app. left. exact I.
Qed.
(** Maintenance callbacks in time, nothing undefined. *)
Theorem replay_timed cbs ops l0 l cut ms fuel : wrun translation ops [] = Some l0 -> Permutation l0 l -> records_ok cbs ops ->
  (forall k t data, In (Log k t data) ops -> far_from_overflow t) -> (forall m, In m ms -> far_from_overflow (next_call m) /\ period_ok (period m)) ->
  timed_end ms (read dual junk fuel cbs (opened dual junk cut l) ms).
Proof.
  intros W P R St Ms. destruct (perm_wrun ops l0 l W P) as (El & ND & Eb). unfold read. rewrite filter_opened.
  set (ls := filter (fun s => subscribed cbs (w_key s)) l).
  destruct (contents_exist translation dual junk translation_ok dual_ok cbs ops cut ls R) as (cs & F1 & F2).
  { intros s I. unfold ls in I. apply filter_In in I as (I & _). apply Eb. exact I. }
  { intros s I. unfold ls in I. apply filter_In in I as (_ & I). exact I. }
  apply loop_timed with (cs := cs); [exact Ms|exact F1| | | |].
  - apply Forall_forall. intros c Ic. apply Forall_forall. intros x Ix. apply In_nth_error in Ic as (i & Ei).
    destruct (Forall2_nth_r _ _ _ F2 i c Ei) as (s & _ & C). pose proof (cut_stamps _ _ _ _ C Ix) as X. apply in_map_iff in X as ((t, data) & E & I). cbn [fst] in E.
    rewrite <- E. apply logged_in in I. apply (St _ _ _ I).
  - left. reflexivity.
  - intros i m _ a b k t v c E. exfalso. destruct a; [destruct b|]; discriminate.
  - split; [reflexivity|]. intros i m0 E. exists m0. split; [exact E|]. split; [reflexivity|]. destruct (Ms m0 (nth_error_In _ _ E)) as ((N & B) & _).
    split; [exact N|]. split; [lia|]. cbn [calls]. lia.
Qed.
End Whole.

(** ** Termination whatever the bytes *)
Section Term.
Variable dual : list Z -> list Z -> list Z.
Variable junk : list Z.
Lemma read_bytes_shrink n old s : length (rest (snd (read_bytes n old s))) <= length (rest s).
Proof. unfold read_bytes. destruct (eof s); [cbn [snd]; lia|]. destruct (n <=? length (rest s)); cbn [snd rest length]; [rewrite skipn_length; lia|lia]. Qed.
Lemma des_shrink t : forall o s, length (rest (snd (des dual junk t o s))) <= length (rest s).
Proof.
  induction t as [p|p r c|p|fs IH|] using SerializeProofs.ty_rec'; intros o s.
  - cbn [des]. pose proof (read_bytes_shrink (width p) (enc p (SerializeModel.num o)) s) as H. destruct (read_bytes _ _ s). exact H.
  - cbn [des]. pose proof (read_bytes_shrink (r * c * width p) (encs p (arr o)) s) as H. destruct (read_bytes _ _ s). exact H.
  - cbn [des]. pose proof (read_bytes_shrink (length (arr o) * width p) (encs p (arr o)) s) as H. destruct (read_bytes _ _ s). exact H.
  - rewrite SerializeProofs.des_struct. revert o s. induction IH as [|(n, u) r P F IHF]; intros o s; [cbn; lia|]. cbn [SerializeProofs.des_fields].
    pose proof (P (get n o) s) as H. cbn [snd] in H. destruct (des dual junk u (get n o) s) as (x, s'). cbn [snd] in H. specialize (IHF (set n x o) s'). lia.
  - cbn [des]. pose proof (read_bytes_shrink (4 * 8) (encs FP64 [one; 0; 0; 0]%Z) s) as H. destruct (read_bytes (4 * 8) _ s) as (bq, s1). cbn [snd] in H.
    pose proof (read_bytes_shrink (3 * 8) (encs FP64 junk) s1) as H2. destruct (read_bytes (3 * 8) _ s1) as (bt, s2). cbn [snd] in *. lia.
Qed.
Lemma read_all_shrink l : forall s, length (rest (snd (read_all dual junk l s))) <= length (rest s).
Proof.
  induction l as [|(t, o) r IH]; intros s; [cbn; lia|]. cbn [read_all]. pose proof (des_shrink t o s) as H. destruct (des dual junk t o s) as (v, s1). cbn [snd] in H.
  specialize (IH s1). destruct (read_all dual junk r s1). cbn [snd] in *. lia.
Qed.
Lemma int_shrink v s : let s' := snd (des dual junk (Prim INT64) v s) in eof s' = true \/ length (rest s') + 8 = length (rest s).
Proof.
  cbn [des width]. unfold read_bytes. destruct (eof s) eqn:E; [left; exact E|]. destruct (Nat.leb_spec 8 (length (rest s))); cbn [snd eof rest]; [right; rewrite skipn_length; lia|left; reflexivity].
Qed.
(** Bytes left of the streams that are not at their end. *)
Definition left_of (s : stream) : nat := if lt (next s) MAX_TIME then S (length (rest (file s))) else 0.
Fixpoint left_all (l : list stream) : nat := match l with [] => 0 | s :: r => left_of s + left_all r end.
Lemma readStamp_left s : left_of (readStamp dual junk s) = 0 \/ left_of (readStamp dual junk s) <= S (length (rest (file s))) - 16 /\ 16 <= length (rest (file s)).
Proof.
  unfold readStamp. pose proof (int_shrink (Num (sec (next s))) (file s)) as H1. destruct (des dual junk (Prim INT64) (Num (sec (next s))) (file s)) as (a, f1). cbn [snd] in H1.
  pose proof (int_shrink (Num (nsec (next s))) f1) as H2. pose proof (LogProofs.des_eof dual junk (Prim INT64) (Num (nsec (next s))) f1) as He. destruct (des dual junk (Prim INT64) (Num (nsec (next s))) f1) as (b, f2). cbn [snd] in H2, He.
  unfold left_of. cbn [next file]. destruct (eof f2) eqn:E.
  - left. reflexivity.
  - right. destruct H2 as [H2|H2]; [congruence|]. destruct H1 as [H1|H1]; [specialize (He H1); congruence|]. destruct (lt _ MAX_TIME); lia.
Qed.
Lemma left_replace : forall l j s s', nth_error l j = Some s -> left_all (replace j s' l) + left_of s = left_all l + left_of s'.
Proof.
  induction l as [|x l IH]; intros [|j] s s' E; try discriminate; cbn [nth_error] in E; cbn [replace left_all].
  - injection E as ->. lia.
  - specialize (IH j s s' E). lia.
Qed.
Lemma loop_ends cbs : forall fuel l ms tr, Forall (fun s => cbs (key s) <> None) l -> left_all l < fuel ->
  match loop dual junk fuel cbs l ms tr with OutOfFuel _ => False | _ => True end.
Proof.
  induction fuel as [|fuel IH]; intros l ms tr Fk L; [lia|]. cbn [loop].
  destruct (scan 0 l MAX_TIME None) as (m, b0) eqn:Sc. apply scan_ok in Sc as [(-> & -> & Fm)|(j & s & -> & Nt & Ns & Tm & Fm)]; [exact I|].
  cbn [Nat.add]. destruct (UtcTimeModel.eq m MAX_TIME); [exact I|]. destruct (maintain 0 ms m tr) as [((ms', tr'), [|])|]; [|exact I|exact I].
  rewrite Nt. pose proof Fk as Fk'. rewrite Forall_forall in Fk'. pose proof (Fk' s (nth_error_In _ _ Nt)) as Ks. destruct (cbs (key s)) as [ts|] eqn:Ck; [|congruence].
  destruct (get_record dual junk ts s) as (vs, s') eqn:G. pose proof (get_keys _ _ _ _ _ _ G) as (_ & Gk). apply IH.
  - apply Forall_forall. intros x Ix. apply in_replace in Ix as [->|Ix]; [rewrite Gk, Ck; discriminate|apply Fk'; exact Ix].
  - unfold get_record in G. pose proof (read_all_shrink ts (file s)) as R. destruct (read_all dual junk ts (file s)) as (v, f). cbn [snd] in R.
    assert (E' : s' = readStamp dual junk (mkS (mapkey s) (key s) f (next s))) by congruence.
    pose proof (readStamp_left (mkS (mapkey s) (key s) f (next s))) as Q. rewrite <- E' in Q. cbn [file] in Q.
    pose proof (left_replace l j s s' Nt) as X. assert (Y : left_of s = S (length (rest (file s)))) by (unfold left_of; rewrite Ns; apply lt_tlt in Tm; rewrite Tm; reflexivity). lia.
Qed.
Theorem read_ends cbs l ms : (forall s, In s l -> cbs (mapkey s) <> None -> cbs (key s) <> None) ->
  exists n, forall fuel, n <= fuel -> match read dual junk fuel cbs l ms with OutOfFuel _ => False | _ => True end.
Proof.
  intros K. unfold read. set (ls := filter _ l). exists (S (left_all ls)). intros fuel L. apply loop_ends; [|lia]. apply Forall_forall. intros s I.
  unfold ls in I. apply filter_In in I as (I & E). apply (K s I). destruct (cbs (mapkey s)); [discriminate|discriminate E].
Qed.
End Term.

(** ** Python on a file that has been cut *)
Section PythonCut.
Import SerializeProofs.
Lemma fromfile_tail d : forall bs vs tail, 0 < itemsize d -> Forall2 (reads d) bs vs -> length tail < itemsize d -> fromfile d (concat bs ++ tail) = vs.
Proof.
  intros bs vs tail P F Lt. unfold fromfile.
  assert (L : length (concat bs ++ tail) / itemsize d = length bs).
  { rewrite app_length. assert (E : length (concat bs) = length bs * itemsize d).
    { clear Lt. induction F as [|b v bs vs (A & _) F IH]; [reflexivity|]. cbn [concat length]. rewrite app_length, IH, A. lia. }
    rewrite E, Nat.div_add_l by lia. rewrite Nat.div_small by exact Lt. lia. }
  rewrite L.
  assert (G : forall pre, Forall (fun b => length b = itemsize d) pre -> map (fun k => np_read d (skipn (k * itemsize d) (concat pre ++ concat bs ++ tail))) (seq (length pre) (length bs)) = vs).
  { clear L. induction F as [|b v bs vs (A & B) F IH]; intros pre Fp; [reflexivity|]. cbn [length seq map]. f_equal.
    - rewrite skipn_exact; [cbn [concat]; rewrite <- app_assoc; apply B|]. clear - Fp. induction Fp; [reflexivity|]. cbn [concat length]. rewrite app_length. lia.
    - specialize (IH (pre ++ [b])). rewrite app_length, Nat.add_1_r in IH. etransitivity; [|apply IH].
      + apply map_ext. intros k. rewrite concat_app. cbn [concat]. rewrite app_nil_r, <- !app_assoc. reflexivity.
      + apply Forall_app. split; [exact Fp|]. constructor; [congruence|constructor]. }
  exact (G [] (Forall_nil _)).
Qed.
Lemma concat_cut {A} L : 0 < L -> forall (bs : list (list A)) n, Forall (fun b => length b = L) bs -> exists c tail, firstn n (concat bs) = concat (firstn c bs) ++ tail /\
  length tail < L /\ c <= length bs /\ length (concat (firstn c bs)) <= n /\ (c < length bs -> n < length (concat (firstn (S c) bs))).
Proof.
  intros P. induction bs as [|b bs IH]; intros n F.
  - exists 0, []. cbn. rewrite firstn_nil. split; [reflexivity|]. lia.
  - inversion F as [|? ? Lb Fb]; subst. destruct (Nat.lt_ge_cases n (length b)) as [H|H].
    + exists 0, (firstn n b). cbn [concat firstn app length]. rewrite firstn_app. replace (n - length b) with 0 by lia. cbn [firstn]. rewrite app_nil_r. split; [reflexivity|].
      rewrite firstn_length. split; [lia|]. split; [lia|]. split; [lia|]. intros _. rewrite app_length. lia.
    + destruct (IH (n - length b) Fb) as (c & tail & E & Lt & Lc & L1 & L2). exists (S c), tail. cbn [concat firstn]. rewrite firstn_app, firstn_all2 by lia. rewrite E, <- app_assoc.
      split; [reflexivity|]. split; [exact Lt|]. cbn [length]. split; [lia|]. rewrite !app_length. split; [lia|]. intros K. specialize (L2 ltac:(lia)). cbn [firstn] in L2. lia.
Qed.
Theorem python_cut translation : (forall r d, length (translation r d) = 3 /\ Forall (in_range FP64) (translation r d)) ->
  forall args (recs : list (value * list value)), plain_args args ->
  Forall (fun r => has_type tUTC (fst r) /\ Forall2 (fun na v => has_type (arg_ty (snd na)) v) args (snd r)) recs ->
  let bytes l := concat (map (fun r => record_bytes translation (fst r) args (snd r)) l) in
  exists y d, makeFormat args = Some y /\ make_dtype y = Some d /\
    forall n, exists c, fromfile d (firstn n (bytes recs)) = map (fun r => p_record translation (fst r) args (snd r)) (firstn c recs) /\
      c <= length recs /\ length (bytes (firstn c recs)) <= n /\ (c < length recs -> n < length (bytes (firstn (S c) recs))).
Proof.
  intros T args recs Pl F. cbv zeta. destruct (stream_layout args Pl) as (y & E1 & E2). exists y, (stream_dtype args). split; [exact E1|]. split; [exact E2|].
  destruct Pl as (_ & Pl & _). assert (P0 : 0 < itemsize (stream_dtype args)).
  { unfold stream_dtype. rewrite itemsize_rec. cbn [sizes]. change (itemsize dUtc) with 16. lia. }
  set (f := fun r : value * list value => record_bytes translation (fst r) args (snd r)). set (g := fun r : value * list value => p_record translation (fst r) args (snd r)).
  assert (R : Forall (fun r => reads (stream_dtype args) (f r) (g r)) recs).
  { apply Forall_forall. intros r I. rewrite Forall_forall in F. destruct (F r I) as (Ts & Fv). apply stream_reads; assumption. }
  intros n. destruct (concat_cut _ P0 (map f recs) n) as (c & tail & E & Lt & Lc & L1 & L2).
  { apply Forall_forall. intros b I. apply in_map_iff in I as (r & <- & I). rewrite Forall_forall in R. destruct (R r I) as (L & _). symmetry. exact L. }
  rewrite map_length in Lc, L2. rewrite firstn_map in E, L1. rewrite firstn_map in L2. exists c. split; [|auto]. rewrite E. apply fromfile_tail; [exact P0| |exact Lt].
  assert (R' : Forall (fun r => reads (stream_dtype args) (f r) (g r)) (firstn c recs)).
  { rewrite <- (firstn_skipn c recs) in R. apply Forall_app in R. apply R. }
  clear - R'. induction R'; cbn [map]; constructor; assumption.
Qed.
End PythonCut.

(** Without maintenance callbacks nothing stops the replay. *)
Lemma loop_no_maint dual junk cbs : forall fuel l tr0, (forall s, In s l -> cbs (key s) <> None) ->
  (exists tr, loop dual junk fuel cbs l [] tr0 = Finished tr) \/ (exists tr, loop dual junk fuel cbs l [] tr0 = OutOfFuel tr).
Proof.
  induction fuel as [|fuel IH]; intros l tr K; cbn [loop]; [right; eexists; reflexivity|].
  destruct (scan 0 l MAX_TIME None) as (m, b0) eqn:Sc. apply scan_ok in Sc as [(-> & -> & Fm)|(j & s & -> & Nt & Ns & Tm & Fm)]; [left; eexists; reflexivity|].
  cbn [Nat.add maintain]. destruct (UtcTimeModel.eq m MAX_TIME); [left; eexists; reflexivity|]. rewrite Nt. pose proof (K s (nth_error_In _ _ Nt)) as Ks.
  destruct (cbs (key s)) as [ts|] eqn:Ck; [|congruence]. destruct (get_record dual junk ts s) as (vs, s') eqn:G. pose proof (get_keys _ _ _ _ _ _ G) as (_ & Gk).
  apply IH. intros x Ix. apply in_replace in Ix as [->|Ix]; [rewrite Gk, Ck; discriminate|apply K; exact Ix].
Qed.
Lemma open_keys dual junk k0 k y b : mapkey (open_stream dual junk k0 k (Some (y, b))) = k /\ key (open_stream dual junk k0 k (Some (y, b))) = y.
Proof.
  cbn [open_stream]. unfold readStamp. cbn [file next mapkey key]. destruct (des dual junk (Prim INT64) (Num (sec (mkUtc 0 0))) _) as (a, f1).
  destruct (des dual junk (Prim INT64) (Num (nsec (mkUtc 0 0))) f1). split; reflexivity.
Qed.
Lemma read_no_maint dual junk cbs fuel cut l :
  (exists tr, read dual junk fuel cbs (opened dual junk cut l) [] = Finished tr) \/ (exists tr, read dual junk fuel cbs (opened dual junk cut l) [] = OutOfFuel tr).
Proof.
  unfold read. apply loop_no_maint. intros s I. apply filter_In in I as (I & E). unfold opened in I. apply in_map_iff in I as (w & <- & _).
  destruct (open_keys dual junk 0 (w_key w) (w_key w) (firstn (cut (w_key w)) (w_bytes w))) as (E1 & E2). rewrite E2. rewrite E1 in E. destruct (cbs (w_key w)); [discriminate|discriminate E].
Qed.
