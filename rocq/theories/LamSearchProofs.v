(** The search visits every integer vector that could be among the best, and ends *)
From Coq Require Import Reals ZArith List Lra Lia Arith.
From Verif Require Import LinSpec LinProofs LamModel LamSpec LamProofs LamTermProofs.
Import ListNotations.
Local Open Scope R_scope.

Lemma set1_same {A} (x : nat -> A) i v : set1 x i v i = v.
Proof. unfold set1. rewrite Nat.eqb_refl. reflexivity. Qed.
Lemma set1_other {A} (x : nat -> A) i v j : j <> i -> set1 x i v j = x j.
Proof. intros H. unfold set1. apply Nat.eqb_neq in H. rewrite H. reflexivity. Qed.

(** ** Integers in order of distance *)
Definition zz (c : R) (z t : Z) : Prop :=
  ((0 < t)%Z /\ IZR t - 1 <= 2 * (c - IZR z) <= IZR t) \/
  ((t < 0)%Z /\ - IZR t - 1 <= 2 * (IZR z - c) <= - IZR t).
Definition ahead (z t w : Z) : Prop :=
  ((0 < t)%Z /\ (w <= z \/ z + t <= w)%Z) \/ ((t < 0)%Z /\ (z <= w \/ w <= z + t)%Z).

Lemma zz_first c : zz c (rnd c) (first_step (c - IZR (rnd c))).
Proof.
  assert (H' : - / 2 <= c - IZR (rnd c) <= / 2).
  { pose proof (Rle_abs (c - IZR (rnd c))). pose proof (Rle_abs (- (c - IZR (rnd c)))) as K.
    rewrite Rabs_Ropp in K. pose proof (rnd_near c). lra. }
  unfold first_step, sgn, zz. destruct (Rle_dec 0 (c - IZR (rnd c))) as [Hs|Hs]; cbn [Z.eqb].
  - left. split; [lia|]. lra.
  - right. split; [lia|]. lra.
Qed.
Lemma first_step_abs x : Z.abs (first_step x) = 1%Z.
Proof. unfold first_step, sgn. destruct (Rle_dec 0 x); reflexivity. Qed.
Lemma zz_next c z t : zz c z t -> zz c (z + t) (- t - sgnz t).
Proof.
  intros [[Ht H]|[Ht H]]; unfold sgnz.
  - destruct (Z.leb_spec 0 t); [|lia]. right. split; [lia|].
    rewrite plus_IZR, minus_IZR, opp_IZR. lra.
  - destruct (Z.leb_spec 0 t); [lia|]. left. split; [lia|].
    replace (- t - -1)%Z with (1 - t)%Z by lia. rewrite plus_IZR, minus_IZR. lra.
Qed.
Lemma next_abs t : Z.abs (- t - sgnz t) = (Z.abs t + 1)%Z.
Proof. unfold sgnz. destruct (Z.leb_spec 0 t); lia. Qed.
Lemma zz_nonzero c z t : zz c z t -> t <> 0%Z.
Proof. intros [[H _]|[H _]]; lia. Qed.
Lemma ahead_self c z t : zz c z t -> ahead z t z.
Proof. intros [[H _]|[H _]]; [left|right]; split; try exact H; left; lia. Qed.
Lemma ahead_first x z w : ahead z (first_step x) w.
Proof.
  unfold ahead, first_step, sgn. destruct (Rle_dec 0 x); cbn [Z.eqb]; [left|right]; split; lia.
Qed.
Lemma ahead_next z t w : t <> 0%Z -> (ahead (z + t) (- t - sgnz t) w <-> ahead z t w /\ w <> z).
Proof.
  intros Ht. unfold ahead, sgnz. destruct (Z.leb_spec 0 t); lia.
Qed.
Lemma zz_size c z t : zz c z t -> IZR (Z.abs t) - 1 <= 2 * Rabs (c - IZR z) <= IZR (Z.abs t).
Proof.
  intros [[Ht H]|[Ht H]].
  - assert (1 <= IZR t) by (apply (IZR_le 1); lia). rewrite Rabs_right, Z.abs_eq by (lra || lia). exact H.
  - assert (IZR t <= -1) by (apply (IZR_le _ (-1)); lia).
    rewrite Rabs_minus_sym, Rabs_right, Z.abs_neq, opp_IZR by (lra || lia). exact H.
Qed.
(** What is ahead is no nearer *)
Lemma ahead_far c z t w : zz c z t -> ahead z t w -> Rabs (c - IZR z) <= Rabs (c - IZR w).
Proof.
  intros Hz Ha. destruct Hz as [[Ht H]|[Ht H]].
  - assert (1 <= IZR t) by (apply (IZR_le 1); lia).
    destruct Ha as [[_ [Hw|Hw]]|[Hn _]]; [| |lia].
    + apply IZR_le in Hw. rewrite !Rabs_right by lra. lra.
    + apply IZR_le in Hw. rewrite plus_IZR in Hw. rewrite (Rabs_right (c - IZR z)) by lra.
      rewrite Rabs_minus_sym, Rabs_right by lra. lra.
  - assert (IZR t <= -1) by (apply (IZR_le _ (-1)); lia).
    destruct Ha as [[Hn _]|[_ [Hw|Hw]]]; [lia| |].
    + apply IZR_le in Hw. rewrite !(Rabs_minus_sym c), !Rabs_right by lra. lra.
    + apply IZR_le in Hw. rewrite plus_IZR in Hw. rewrite (Rabs_minus_sym c (IZR z)), (Rabs_right (IZR z - c)) by lra.
      rewrite Rabs_right by lra. lra.
Qed.
Lemma sqr_le x y : Rabs x <= Rabs y -> x * x <= y * y.
Proof. intros H. apply Rsqr_le_abs_1 in H. exact H. Qed.

(** ** Sums over the indices above i *)
Definition tsum (n i : nat) (f : nat -> R) : R := sum n (fun j => if Nat.leb j i then 0 else f j).
Lemma tsum_ext n i f g : (forall j, (i < j < n)%nat -> f j = g j) -> tsum n i f = tsum n i g.
Proof.
  intros H. apply sum_ext. intros j Hj. destruct (Nat.leb_spec j i); [reflexivity|]. apply H. lia.
Qed.
Lemma tsum_step n i f : (S i < n)%nat -> tsum n i f = tsum n (S i) f + f (S i).
Proof.
  intros Hi. unfold tsum.
  enough (E : sum n (fun j => (if Nat.leb j i then 0 else f j) - (if Nat.leb j (S i) then 0 else f j)) = f (S i))
    by (rewrite sum_minus in E; lra).
  rewrite (sum_one n _ (S i) Hi).
  - destruct (Nat.leb_spec (S i) i); [lia|]. rewrite Nat.leb_refl. lra.
  - intros j Hj Hne. destruct (Nat.leb_spec j i), (Nat.leb_spec j (S i)); lia || lra.
Qed.
Lemma tsum_last n i f : (n <= S i)%nat -> tsum n i f = 0.
Proof. intros H. apply sum_zero. intros j Hj. destruct (Nat.leb_spec j i); [reflexivity|lia]. Qed.
Lemma tsum_nonneg n i f : (forall j, (i < j < n)%nat -> 0 <= f j) -> 0 <= tsum n i f.
Proof. intros H. apply sum_nonneg. intros j Hj. destruct (Nat.leb_spec j i); [lra|apply H; lia]. Qed.
Lemma tsum_le_sum n i f : (forall j, (j < n)%nat -> 0 <= f j) -> (i < n)%nat -> tsum n i f + f i <= sum n f.
Proof.
  intros H Hi. unfold tsum.
  assert (E : sum n (fun j => if Nat.eqb j i then f j else 0) = f i).
  { rewrite (sum_one n _ i Hi); [rewrite Nat.eqb_refl; reflexivity|].
    intros j Hj Hne. apply Nat.eqb_neq in Hne. rewrite Hne. reflexivity. }
  rewrite <- E, <- sum_plus. apply sum_le. intros j Hj. pose proof (H j Hj).
  destruct (Nat.leb_spec j i), (Nat.eqb_spec j i); subst; lia || lra.
Qed.

Section Search.
Variables (n nc : nat) (ahat : lvec) (L : lmat) (D : lvec).
Hypothesis Hn : (0 < n)%nat.
Hypothesis Hnc : (0 < nc)%nat.
Hypothesis HL : unit_lower n L.
Hypothesis HD : forall i, (i < n)%nat -> 0 < D i.

(** ** The solution y of Lᵀ y = w - ahat *)
Fixpoint yv (w : nat -> Z) (m : nat) : lvec :=
  match m with
  | O => fun _ => 0
  | S m' => set1 (yv w m') (n - m) (IZR (w (n - m)%nat) - ahat (n - m)%nat - tsum n (n - m) (fun j => yv w m' j * L j (n - m)%nat))
  end.
Definition yof (w : nat -> Z) : lvec := yv w n.
Definition cond (w : nat -> Z) (i : nat) : R := ahat i + tsum n i (fun j => yof w j * L j i).

Lemma yv_stable w m m' j : (m <= m' <= n)%nat -> (n - m <= j)%nat -> yv w m' j = yv w m j.
Proof.
  intros Hm Hj. induction m' as [|k IH]; [replace m with O by lia; reflexivity|].
  destruct (Nat.eq_dec m (S k)) as [->|Hne]; [reflexivity|].
  cbn [yv]. rewrite set1_other by lia. apply IH. lia.
Qed.
Lemma yof_eq w i : (i < n)%nat -> yof w i = IZR (w i) - cond w i.
Proof.
  intros Hi. unfold yof, cond.
  rewrite (yv_stable w (n - i) n i) by lia. replace (n - i)%nat with (S (n - S i)) by lia. cbn [yv].
  replace (n - S (n - S i))%nat with i by lia. rewrite set1_same.
  rewrite (tsum_ext n i (fun j => yof w j * L j i) (fun j => yv w (n - S i) j * L j i)); [lra|].
  intros j Hj. unfold yof. rewrite (yv_stable w (n - S i) n j) by lia. reflexivity.
Qed.
Definition agree (i : nat) (w w' : nat -> Z) : Prop := forall j, (i <= j < n)%nat -> w j = w' j.
Lemma yof_agree w w' i : agree i w w' -> forall j, (i <= j < n)%nat -> yof w j = yof w' j.
Proof.
  intros H. assert (G : forall m j, (n - m <= j < n)%nat -> (i <= j)%nat -> yof w j = yof w' j).
  { induction m as [|m IH]; intros j Hj Hij; [lia|].
    rewrite !yof_eq by lia. rewrite (H j) by lia. f_equal. unfold cond. f_equal. apply tsum_ext.
    intros k Hk. rewrite (IH k) by lia. reflexivity. }
  intros j Hj. apply (G n); lia.
Qed.
Lemma cond_agree w w' i : agree (S i) w w' -> cond w i = cond w' i.
Proof.
  intros H. unfold cond. f_equal. apply tsum_ext. intros j Hj. rewrite (yof_agree w w' (S i) H j) by lia. reflexivity.
Qed.

(** Distances, whole and of the components above i *)
Definition dw (w : nat -> Z) : R := sum n (fun j => yof w j * yof w j / D j).
Definition pd (w : nat -> Z) (i : nat) : R := tsum n i (fun j => yof w j * yof w j / D j).
Lemma sqr_div_nonneg x i : (i < n)%nat -> 0 <= x * x / D i.
Proof. intros Hi. apply Rmult_le_pos; [apply Rle_0_sqr|]. left. apply Rinv_0_lt_compat, HD, Hi. Qed.
Lemma pd_agree w w' i : agree (S i) w w' -> pd w i = pd w' i.
Proof. intros H. apply tsum_ext. intros j Hj. rewrite (yof_agree w w' (S i) H j) by lia. reflexivity. Qed.
Lemma dw_agree w w' : agree 0 w w' -> dw w = dw w'.
Proof. intros H. apply sum_ext. intros j Hj. rewrite (yof_agree w w' 0 H j) by lia. reflexivity. Qed.
Lemma pd_nonneg w i : 0 <= pd w i.
Proof. apply tsum_nonneg. intros j Hj. apply sqr_div_nonneg. lia. Qed.
Lemma dw_ge w i : (i < n)%nat -> pd w i + yof w i * yof w i / D i <= dw w.
Proof. intros Hi. apply (tsum_le_sum n i (fun j => yof w j * yof w j / D j)); [intros; apply sqr_div_nonneg; assumption|exact Hi]. Qed.
Lemma dw_0 w : dw w = pd w 0 + yof w O * yof w O / D O.
Proof.
  unfold dw, pd, tsum. destruct n as [|m]; [lia|]. rewrite !sum_first.
  rewrite Nat.leb_refl. rewrite (sum_ext m (fun i => if Nat.leb (S i) 0 then 0 else _) (fun i => yof w (S i) * yof w (S i) / D (S i))).
  - lra.
  - intros i Hi. reflexivity.
Qed.

(** ** The invariant of the search *)
Definition todo (s : srch) (w : nat -> Z) : Prop :=
  exists i, (sk s <= i < n)%nat /\ agree (S i) w (szcond s) /\
    ahead (szcond s i) (sstep s i) (w i) /\ (i <> sk s -> w i <> szcond s i).

Definition phase (s : srch) (ns : nat) : Prop :=
  (schi s = 1e18 /\ ns = scnt s /\ (scnt s <= nc - 1)%nat /\ simax s = (nc - 1)%nat) \/
  (schi s < 1e18 /\ ns = nc /\ scnt s = (nc - 1)%nat /\ (simax s < nc)%nat /\
   schi s = snorms s (simax s) /\ forall c, (c < nc)%nat -> snorms s c <= schi s).

Record sinv (s : srch) : Prop := SInv {
  si_k : (sk s < n)%nat;
  si_a : forall i, (sk s <= i < n)%nat -> sacond s i = cond (szcond s) i;
  si_d : forall i, (sk s <= i < n)%nat -> sdist s i = pd (szcond s) i;
  si_S : forall i c, (sk s <= i < n)%nat -> (c <= i)%nat -> sS s i c = tsum n i (fun j => yof (szcond s) j * L j c);
  si_l : sleft s = sacond s (sk s) - IZR (szcond s (sk s));
  si_z : forall i, (sk s <= i < n)%nat -> zz (sacond s i) (szcond s i) (sstep s i);
  si_c : exists ns, phase s ns /\
    (forall c, (c < ns)%nat -> snorms s c = dw (scols s c) /\ snorms s c < 1e18) /\
    (forall c c', (c < c' < ns)%nat -> differ n (scols s c) (scols s c')) /\
    (forall c w, (c < ns)%nat -> todo s w -> differ n (scols s c) w) /\
    (forall w, todo s w \/ (exists c, (c < ns)%nat /\ agree 0 w (scols s c)) \/ schi s <= dw w) }.

Lemma agree_differ w w' : agree 0 w w' \/ differ n w w'.
Proof.
  assert (G : forall m, (m <= n)%nat -> (forall j, (j < m)%nat -> w j = w' j) \/ differ n w w').
  { induction m as [|m IH]; intros Hm; [left; intros; lia|].
    destruct (IH ltac:(lia)) as [H|H]; [|right; exact H].
    destruct (Z.eq_dec (w m) (w' m)) as [E|E]; [|right; exists m; split; [lia|exact E]].
    left. intros j Hj. destruct (Nat.eq_dec j m) as [->|]; [exact E|apply H; lia]. }
  destruct (G n (le_n n)) as [H|H]; [left|right; exact H]. intros j Hj. apply H. lia.
Qed.
Lemma agree_weaken i j w w' : (i <= j)%nat -> agree i w w' -> agree j w w'.
Proof. intros Hij H k Hk. apply H. lia. Qed.
Lemma agree_sym i w w' : agree i w w' -> agree i w' w.
Proof. intros H j Hj. symmetry. apply H, Hj. Qed.
Lemma agree_set i k z v : (k < i)%nat -> agree i (set1 z k v) z.
Proof. intros H j Hj. apply set1_other. lia. Qed.
Lemma agree_trans i w w' w'' : agree i w w' -> agree i w' w'' -> agree i w w''.
Proof. intros H K j Hj. rewrite H, K by assumption. reflexivity. Qed.

Lemma current_todo s : sinv s -> sk s = O -> todo s (szcond s).
Proof.
  intros HI Hk. pose proof (si_z s HI O ltac:(lia)) as Hz.
  exists O. split; [lia|]. split; [intros j Hj; reflexivity|].
  split; [apply (ahead_self _ _ _ Hz)|]. intros H. lia.
Qed.

(** Everything below a level that is too far is too far *)
Lemma todo_level_far s w : sinv s -> agree (S (sk s)) w (szcond s) ->
  ahead (szcond s (sk s)) (sstep s (sk s)) (w (sk s)) ->
  sdist s (sk s) + sleft s * sleft s / D (sk s) <= dw w.
Proof.
  intros HI Hag Ha. pose proof (si_k s HI) as Hk.
  eapply Rle_trans; [|apply (dw_ge w (sk s) Hk)].
  rewrite (si_d s HI) by lia. rewrite (pd_agree w (szcond s) (sk s) Hag). apply Rplus_le_compat_l.
  pose proof (si_a s HI (sk s) ltac:(lia)) as Ea. pose proof (si_z s HI (sk s) ltac:(lia)) as Hz.
  assert (Ey : yof w (sk s) = - (sacond s (sk s) - IZR (w (sk s)))).
  { rewrite yof_eq by exact Hk. rewrite (cond_agree w (szcond s) (sk s) Hag), Ea. lra. }
  rewrite Ey, (si_l s HI). pose proof (HD (sk s) Hk) as Hd.
  apply Rmult_le_compat_r; [left; apply Rinv_0_lt_compat; exact Hd|].
  apply sqr_le. rewrite Rabs_Ropp. apply (ahead_far _ _ _ _ Hz Ha).
Qed.

(** *** Down *)
Definition down (s : srch) (k' : nat) (newdist : R) : srch :=
  let S' : lmat := fun r c => if andb (Nat.eqb r k') (Nat.leb c k')
                              then sS s (S k') c + (IZR (szcond s (S k')) - sacond s (S k')) * L (S k') c else sS s r c in
  let ac := ahat k' + S' k' k' in let zc := rnd ac in
  Srch k' (ac - IZR zc) (set1 (sdist s) k' newdist) (set1 (sacond s) k' ac) (set1 (szcond s) k' zc)
       (set1 (sstep s) k' (first_step (ac - IZR zc))) S'
       (scols s) (snorms s) (scnt s) (simax s) (schi s).

Lemma todo_down s k' nd w : sinv s -> sk s = S k' -> (todo (down s k' nd) w <-> todo s w).
Proof.
  intros HI Hk. pose proof (si_k s HI) as Hkn. unfold todo, down. cbn [sk szcond sstep].
  set (ac := ahat k' + _). clearbody ac. split.
  - intros (i & Hi & Hag & Ha & Hne). destruct (Nat.eq_dec i k') as [->|Hni].
    + (* w agrees with the current vector above k' *)
      assert (Hag' : agree (S k') w (szcond s)) by (eapply agree_trans; [exact Hag|apply agree_set; lia]).
      exists (S k'). split; [lia|]. split; [apply (agree_weaken (S k')); [lia|exact Hag']|].
      rewrite (Hag' (S k')) by lia. split; [|intros; lia].
      apply (ahead_self (sacond s (S k'))). apply (si_z s HI). lia.
    + rewrite (set1_other (szcond s)), (set1_other (sstep s)) in Ha by lia. rewrite set1_other in Hne by lia. exists i. split; [lia|].
      split; [eapply agree_trans; [exact Hag|apply agree_set; lia]|]. split; [exact Ha|]. intros _. apply Hne. lia.
  - intros (i & Hi & Hag & Ha & Hne). destruct (Nat.eq_dec i (S k')) as [->|Hni].
    + destruct (Z.eq_dec (w (S k')) (szcond s (S k'))) as [E|E].
      * exists k'. split; [lia|]. split.
        -- intros j Hj. rewrite set1_other by lia. destruct (Nat.eq_dec j (S k')) as [->|]; [exact E|apply Hag; lia].
        -- split; [|intros; lia]. rewrite !set1_same. apply ahead_first.
      * exists (S k'). split; [lia|]. split; [intros j Hj; rewrite set1_other by lia; apply Hag; lia|].
        rewrite !set1_other by lia. split; [exact Ha|]. intros _. exact E.
    + exists i. split; [lia|]. split; [intros j Hj; rewrite set1_other by lia; apply Hag; lia|].
      rewrite !set1_other by lia. split; [exact Ha|]. intros _. apply Hne. lia.
Qed.
Lemma down_inv s k' : sinv s -> sk s = S k' ->
  sinv (down s k' (sdist s (S k') + sleft s * sleft s / D (S k'))).
Proof.
  intros HI Hk. pose proof (si_k s HI) as Hkn. rewrite Hk in Hkn.
  assert (Ey : IZR (szcond s (S k')) - sacond s (S k') = yof (szcond s) (S k')).
  { rewrite yof_eq by exact Hkn. rewrite (si_a s HI) by lia. reflexivity. }
  set (nd := sdist s (S k') + sleft s * sleft s / D (S k')).
  set (z' := szcond (down s k' nd)).
  assert (Hag : agree (S k') z' (szcond s)).
  { unfold z', down. cbn [szcond]. apply agree_set. lia. }
  assert (HSk : forall c, (c <= k')%nat -> sS (down s k' nd) k' c = tsum n k' (fun j => yof z' j * L j c)).
  { intros c Hc. unfold down. cbn [sS]. rewrite Nat.eqb_refl. destruct (Nat.leb_spec c k'); [|lia]. cbn [andb].
    rewrite (si_S s HI) by lia. rewrite Ey. rewrite (tsum_step n k') by exact Hkn.
    rewrite (yof_agree z' (szcond s) (S k') Hag) by lia. f_equal. apply tsum_ext. intros j Hj.
    rewrite (yof_agree z' (szcond s) (S k') Hag) by lia. reflexivity. }
  assert (Hac : sacond (down s k' nd) k' = cond z' k').
  { unfold cond. rewrite <- HSk by lia. unfold down. cbn [sacond sS]. rewrite set1_same. reflexivity. }
  assert (Heq : forall i, (S k' <= i)%nat -> sacond (down s k' nd) i = sacond s i /\ sdist (down s k' nd) i = sdist s i /\
            z' i = szcond s i /\ sstep (down s k' nd) i = sstep s i).
  { intros i Hi. unfold z', down. cbn [sacond sdist szcond sstep]. rewrite !set1_other by lia. tauto. }
  assert (Hz0 : zz (sacond (down s k' nd) k') (z' k') (sstep (down s k' nd) k')).
  { unfold z', down. cbn [sacond szcond sstep]. rewrite !set1_same. apply zz_first. }
  assert (Hsk : sk (down s k' nd) = k') by reflexivity.
  split; rewrite ?Hsk.
  - lia.
  - intros i Hi. fold z'. destruct (Nat.eq_dec i k') as [->|Hne]; [exact Hac|].
    destruct (Heq i ltac:(lia)) as (-> & _). rewrite (si_a s HI) by lia.
    apply cond_agree, agree_sym, (agree_weaken (S k')); [lia|exact Hag].
  - intros i Hi. fold z'. destruct (Nat.eq_dec i k') as [->|Hne].
    + unfold down at 1. cbn [sdist]. rewrite set1_same. unfold nd.
      unfold pd. rewrite (tsum_step n k') by exact Hkn.
      rewrite (si_d s HI) by lia. unfold pd. f_equal.
      * apply tsum_ext. intros j Hj. rewrite (yof_agree z' (szcond s) (S k') Hag) by lia. reflexivity.
      * rewrite (yof_agree z' (szcond s) (S k') Hag) by lia.
        rewrite (si_l s HI), Hk. replace (sacond s (S k') - IZR (szcond s (S k'))) with (- yof (szcond s) (S k')) by lra.
        pose proof (HD (S k') Hkn). field. lra.
    + destruct (Heq i ltac:(lia)) as (_ & -> & _). rewrite (si_d s HI) by lia.
      apply pd_agree, agree_sym, (agree_weaken (S k')); [lia|exact Hag].
  - intros i c Hi Hc. fold z'. destruct (Nat.eq_dec i k') as [->|Hne]; [apply HSk; exact Hc|].
    unfold down at 1. cbn [sS]. destruct (Nat.eqb_spec i k'); [lia|]. cbn [andb].
    rewrite (si_S s HI) by lia. apply tsum_ext. intros j Hj.
    rewrite (yof_agree z' (szcond s) (S k') Hag) by lia. reflexivity.
  - unfold down. cbn [sleft sacond szcond sk]. rewrite !set1_same. reflexivity.
  - intros i Hi. fold z'. destruct (Nat.eq_dec i k') as [->|Hne]; [exact Hz0|].
    destruct (Heq i ltac:(lia)) as (-> & _ & -> & ->). apply (si_z s HI). lia.
  - destruct (si_c s HI) as (ns & Hp & Hs & Hd & Ht & Hall). exists ns.
    split; [exact Hp|]. split; [exact Hs|]. split; [exact Hd|]. split.
    + intros c w Hc Hw. apply (Ht c w Hc). apply (todo_down s k' nd w HI Hk). exact Hw.
    + intros w. destruct (Hall w) as [H|H]; [left; apply (todo_down s k' nd w HI Hk); exact H|right; exact H].
Qed.

(** *** The next integer at level k, when everything still to do below and at the current one is done *)
Lemma todo_advance s k w : sinv s -> (sk s <= k < n)%nat ->
  (todo (advance k s) w <->
   exists i, (k <= i < n)%nat /\ agree (S i) w (szcond s) /\ ahead (szcond s i) (sstep s i) (w i) /\ w i <> szcond s i).
Proof.
  intros HI Hk. pose proof (si_z s HI) as Hz. unfold todo, advance. cbn [sk szcond sstep]. split.
  - intros (i & Hi & Hag & Ha & Hne). exists i. split; [exact Hi|].
    split; [eapply agree_trans; [exact Hag|apply agree_set; lia]|].
    destruct (Nat.eq_dec i k) as [->|Hni].
    + rewrite !set1_same in Ha. apply ahead_next in Ha; [exact Ha|]. apply (zz_nonzero _ _ _ (Hz k ltac:(lia))).
    + rewrite (set1_other (szcond s)), (set1_other (sstep s)) in Ha by lia. rewrite set1_other in Hne by lia. split; [exact Ha|apply Hne, Hni].
  - intros (i & Hi & Hag & Ha & Hne). exists i. split; [exact Hi|].
    split; [intros j Hj; rewrite set1_other by lia; apply Hag; exact Hj|].
    destruct (Nat.eq_dec i k) as [->|Hni].
    + rewrite !set1_same. split; [|intros; lia]. apply ahead_next; [apply (zz_nonzero _ _ _ (Hz k ltac:(lia)))|].
      split; assumption.
    + rewrite !set1_other by exact Hni. split; [exact Ha|]. intros _. exact Hne.
Qed.
(** The part of the invariant that does not concern the candidates *)
Lemma advance_base s k : sinv s -> (sk s <= k < n)%nat ->
  let s' := advance k s in
  (sk s' < n)%nat /\
  (forall i, (sk s' <= i < n)%nat -> sacond s' i = cond (szcond s') i) /\
  (forall i, (sk s' <= i < n)%nat -> sdist s' i = pd (szcond s') i) /\
  (forall i c, (sk s' <= i < n)%nat -> (c <= i)%nat -> sS s' i c = tsum n i (fun j => yof (szcond s') j * L j c)) /\
  sleft s' = sacond s' (sk s') - IZR (szcond s' (sk s')) /\
  (forall i, (sk s' <= i < n)%nat -> zz (sacond s' i) (szcond s' i) (sstep s' i)).
Proof.
  intros HI Hk s'.
  assert (Hag : agree (S k) (szcond s') (szcond s)) by (apply agree_set; lia).
  assert (Hsk : sk s' = k) by reflexivity. rewrite !Hsk.
  split; [lia|]. split; [|split; [|split; [|split]]].
  - intros i Hi. change (sacond s' i) with (sacond s i). rewrite (si_a s HI) by lia.
    apply cond_agree, agree_sym, (agree_weaken (S k)); [lia|exact Hag].
  - intros i Hi. change (sdist s' i) with (sdist s i). rewrite (si_d s HI) by lia.
    apply pd_agree, agree_sym, (agree_weaken (S k)); [lia|exact Hag].
  - intros i c Hi Hc. change (sS s' i c) with (sS s i c). rewrite (si_S s HI) by lia. apply tsum_ext. intros j Hj.
    rewrite (yof_agree _ _ (S k) Hag) by lia. reflexivity.
  - unfold s', advance. cbn [sleft sacond szcond]. rewrite set1_same. reflexivity.
  - intros i Hi. unfold s', advance. cbn [sacond szcond sstep]. destruct (Nat.eq_dec i k) as [->|Hne].
    + rewrite !set1_same. apply zz_next, (si_z s HI). lia.
    + rewrite !set1_other by exact Hne. apply (si_z s HI). lia.
Qed.

(** *** Up *)
Lemma up_inv s : sinv s -> (S (sk s) < n)%nat ->
  schi s <= sdist s (sk s) + sleft s * sleft s / D (sk s) -> sinv (advance (S (sk s)) s).
Proof.
  intros HI Hk Hfar.
  destruct (advance_base s (S (sk s)) HI ltac:(lia)) as (B1 & B2 & B3 & B4 & B5 & B6).
  split; try assumption.
  destruct (si_c s HI) as (ns & Hp & Hs & Hd & Ht & Hall). exists ns.
  split; [exact Hp|]. split; [exact Hs|]. split; [exact Hd|]. split.
  - intros c w Hc Hw. apply (Ht c w Hc). apply (todo_advance s (S (sk s)) w HI ltac:(lia)) in Hw.
    destruct Hw as (i & Hi & Hag & Ha & Hne). exists i. split; [lia|]. split; [exact Hag|]. split; [exact Ha|]. intros _. exact Hne.
  - intros w. destruct (Hall w) as [(i & Hi & Hag & Ha & Hne)|H]; [|right; exact H].
    destruct (Nat.eq_dec i (sk s)) as [->|Hni].
    + right. right. eapply Rle_trans; [exact Hfar|]. apply todo_level_far; assumption.
    + left. apply (todo_advance s (S (sk s)) w HI ltac:(lia)). exists i. split; [lia|].
      split; [exact Hag|]. split; [exact Ha|]. apply Hne, Hni.
Qed.

(** *** Storing *)
Lemma imax_of_spec m x : (0 < m)%nat -> (imax_of m x < m)%nat /\ forall c, (c < m)%nat -> x c <= x (imax_of m x).
Proof.
  induction m as [|m IH]; intros Hm; [lia|]. destruct m as [|m].
  - cbn [imax_of]. split; [lia|]. intros c Hc. replace c with O by lia. lra.
  - destruct (IH ltac:(lia)) as [IH1 IH2]. remember (S m) as m1 eqn:Em. cbn [imax_of]. rewrite Em. rewrite <- Em. cbv zeta.
    destruct (Rlt_dec _ _) as [H|H].
    + split; [lia|]. intros c Hc. destruct (Nat.eq_dec c m1) as [->|]; [lra|]. pose proof (IH2 c ltac:(lia)). lra.
    + split; [lia|]. intros c Hc. destruct (Nat.eq_dec c m1) as [->|]; [lra|]. apply IH2. lia.
Qed.

Definition store (s : srch) (newdist : R) : srch :=
  if Nat.ltb (scnt s) (nc - 1) then
    Srch O (sleft s) (sdist s) (sacond s) (szcond s) (sstep s) (sS s)
         (set1 (scols s) (scnt s) (szcond s)) (set1 (snorms s) (scnt s) newdist) (S (scnt s)) (simax s) (schi s)
  else
    let nrm := set1 (snorms s) (simax s) newdist in
    let im := imax_of nc nrm in
    Srch O (sleft s) (sdist s) (sacond s) (szcond s) (sstep s) (sS s)
         (set1 (scols s) (simax s) (szcond s)) nrm (scnt s) im (nrm im).

Lemma store_eta s newdist : exists cols nrm cnt im chi,
  store s newdist = Srch O (sleft s) (sdist s) (sacond s) (szcond s) (sstep s) (sS s) cols nrm cnt im chi.
Proof. unfold store. destruct (Nat.ltb _ _); repeat eexists. Qed.
Lemma advance_store s newdist :
  szcond (advance 0 (store s newdist)) = szcond (advance 0 s) /\ sstep (advance 0 (store s newdist)) = sstep (advance 0 s) /\
  sacond (advance 0 (store s newdist)) = sacond s /\ sdist (advance 0 (store s newdist)) = sdist s /\
  sS (advance 0 (store s newdist)) = sS s /\ sleft (advance 0 (store s newdist)) = sleft (advance 0 s) /\
  sk (advance 0 (store s newdist)) = O.
Proof. destruct (store_eta s newdist) as (cols & nrm & cnt & im & chi & ->). unfold advance. cbn. tauto. Qed.

Lemma differ_sym w w' : differ n w w' -> differ n w' w.
Proof. intros (i & Hi & H). exists i. split; [exact Hi|auto]. Qed.

Lemma newdist_dw s : sinv s -> sk s = O -> sdist s O + sleft s * sleft s / D O = dw (szcond s).
Proof.
  intros HI Hk. rewrite dw_0. rewrite (si_d s HI) by lia. f_equal.
  rewrite (si_l s HI), Hk, yof_eq by exact Hn. rewrite (si_a s HI O) by lia.
  pose proof (HD O Hn). field. lra.
Qed.

Lemma store_inv s : sinv s -> sk s = O -> sdist s O + sleft s * sleft s / D O < schi s ->
  sinv (advance 0 (store s (sdist s O + sleft s * sleft s / D O))).
Proof.
  intros HI Hk Hlt. rewrite (newdist_dw s HI Hk) in *.
  destruct (advance_base s 0 HI ltac:(lia)) as (B1 & B2 & B3 & B4 & B5 & B6).
  destruct (advance_store s (dw (szcond s))) as (E1 & E2 & E3 & E4 & E5 & E6 & E7).
  pose proof (current_todo s HI Hk) as Hcur.
  (* what is still to do *)
  assert (Htodo : forall w, todo (advance 0 (store s (dw (szcond s)))) w <-> todo (advance 0 s) w).
  { intros w. unfold todo. rewrite E1, E2, E7. reflexivity. }
  assert (Hless : forall w, todo (advance 0 s) w -> todo s w /\ differ n (szcond s) w).
  { intros w Hw. apply (todo_advance s 0 w HI ltac:(lia)) in Hw. destruct Hw as (i & Hi & Hag & Ha & Hne).
    split.
    - exists i. split; [lia|]. split; [exact Hag|]. split; [exact Ha|]. intros _. exact Hne.
    - exists i. split; [lia|auto]. }
  assert (Hmore : forall w, todo s w -> todo (advance 0 s) w \/ agree 0 w (szcond s)).
  { intros w (i & Hi & Hag & Ha & Hne). rewrite Hk in Hi, Hne.
    destruct (Nat.eq_dec i O) as [->|Hni].
    - destruct (Z.eq_dec (w O) (szcond s O)) as [E|E].
      + right. intros j Hj. destruct (Nat.eq_dec j O) as [->|]; [exact E|apply Hag; lia].
      + left. apply (todo_advance s 0 w HI ltac:(lia)). exists O. split; [lia|]. split; [exact Hag|]. split; assumption.
    - left. apply (todo_advance s 0 w HI ltac:(lia)). exists i. split; [lia|]. split; [exact Hag|].
      split; [exact Ha|apply Hne, Hni]. }
  assert (Hchi : schi s <= 1e18).
  { destruct (si_c s HI) as (ns & [(-> & _)|(H & _)] & _); lra. }
  split; rewrite ?E1, ?E2, ?E3, ?E4, ?E5, ?E6, ?E7.
  1-6: assumption.
  destruct (si_c s HI) as (ns & Hp & Hs & Hd & Ht & Hall).
  destruct (Nat.ltb_spec (scnt s) (nc - 1)) as [Hcnt|Hcnt].
  - (* one of the first *)
    destruct Hp as [(Hc1 & -> & Hc2 & Hc3)|(Hc1 & Hns & Hc2 & _)]; [|lia].
    assert (F : store s (dw (szcond s)) =
      Srch O (sleft s) (sdist s) (sacond s) (szcond s) (sstep s) (sS s)
         (set1 (scols s) (scnt s) (szcond s)) (set1 (snorms s) (scnt s) (dw (szcond s))) (S (scnt s)) (simax s) (schi s)).
    { unfold store. destruct (Nat.ltb_spec (scnt s) (nc - 1)); [reflexivity|lia]. }
    assert (Fc : scols (advance 0 (store s (dw (szcond s)))) = set1 (scols s) (scnt s) (szcond s)) by (rewrite F; reflexivity).
    assert (Fn : snorms (advance 0 (store s (dw (szcond s)))) = set1 (snorms s) (scnt s) (dw (szcond s))) by (rewrite F; reflexivity).
    assert (Fk : scnt (advance 0 (store s (dw (szcond s)))) = S (scnt s)) by (rewrite F; reflexivity).
    assert (Fi : simax (advance 0 (store s (dw (szcond s)))) = simax s) by (rewrite F; reflexivity).
    assert (Fx : schi (advance 0 (store s (dw (szcond s)))) = schi s) by (rewrite F; reflexivity).
    clear F. exists (S (scnt s)). unfold phase. rewrite Fc, Fn, Fk, Fi, Fx.
    split; [left; split; [exact Hc1|split; [reflexivity|split; [lia|exact Hc3]]]|].
    split; [|split; [|split]].
    + intros c Hc. destruct (Nat.eq_dec c (scnt s)) as [->|Hne].
      * rewrite !set1_same. split; [reflexivity|lra].
      * rewrite !set1_other by exact Hne. apply Hs. lia.
    + intros c c' Hc. destruct (Nat.eq_dec c' (scnt s)) as [->|Hne].
      * rewrite set1_same, set1_other by lia. apply Ht; [lia|exact Hcur].
      * rewrite !set1_other by lia. apply Hd. lia.
    + intros c w Hc Hw. apply Htodo, Hless in Hw. destruct Hw as [Hw Hdf].
      destruct (Nat.eq_dec c (scnt s)) as [->|Hne].
      * rewrite set1_same. exact Hdf.
      * rewrite set1_other by exact Hne. apply Ht; [lia|exact Hw].
    + intros w. destruct (Hall w) as [H|[(c & Hc & Hag)|H]].
      * destruct (Hmore w H) as [H'|H']; [left; apply Htodo; exact H'|].
        right. left. exists (scnt s). split; [lia|]. rewrite set1_same. exact H'.
      * right. left. exists c. split; [lia|]. rewrite set1_other by lia. exact Hag.
      * right. right. exact H.
  - (* the place of the farthest *)
    set (nrm := set1 (snorms s) (simax s) (dw (szcond s))).
    assert (F : store s (dw (szcond s)) =
      Srch O (sleft s) (sdist s) (sacond s) (szcond s) (sstep s) (sS s)
         (set1 (scols s) (simax s) (szcond s)) nrm (scnt s) (imax_of nc nrm) (nrm (imax_of nc nrm))).
    { unfold store. destruct (Nat.ltb_spec (scnt s) (nc - 1)); [lia|reflexivity]. }
    assert (Fc : scols (advance 0 (store s (dw (szcond s)))) = set1 (scols s) (simax s) (szcond s)) by (rewrite F; reflexivity).
    assert (Fn : snorms (advance 0 (store s (dw (szcond s)))) = nrm) by (rewrite F; reflexivity).
    assert (Fk : scnt (advance 0 (store s (dw (szcond s)))) = scnt s) by (rewrite F; reflexivity).
    assert (Fi : simax (advance 0 (store s (dw (szcond s)))) = imax_of nc nrm) by (rewrite F; reflexivity).
    assert (Fx : schi (advance 0 (store s (dw (szcond s)))) = nrm (imax_of nc nrm)) by (rewrite F; reflexivity).
    clear F. destruct (imax_of_spec nc nrm Hnc) as [I1 I2].
    exists nc. unfold phase. rewrite Fc, Fn, Fk, Fi, Fx.
    (* facts common to the two phases *)
    assert (P : scnt s = (nc - 1)%nat /\ (simax s < nc)%nat /\
      (forall c, (c < nc)%nat -> c <> simax s -> (c < ns)%nat) /\ (forall c, (c < ns)%nat -> (c < nc)%nat) /\
      (forall c, (c < ns)%nat -> snorms s c <= schi s) /\
      ((simax s < ns)%nat -> schi s <= snorms s (simax s))).
    { destruct Hp as [(P1 & P2 & P3 & P4)|(P1 & P2 & P3 & P4 & P5 & P6)].
      - split; [lia|]. split; [lia|]. split; [lia|]. split; [lia|]. split.
        + intros c Hc. destruct (Hs c Hc). lra.
        + intros. lia.
      - split; [exact P3|]. split; [exact P4|]. split; [lia|]. split; [lia|]. split.
        + intros c Hc. apply P6. lia.
        + intros _. rewrite P5. lra. }
    destruct P as (P1 & P2 & P3 & P4 & P5 & P6).
    assert (Hnrm : forall c, (c < nc)%nat -> nrm c = dw (set1 (scols s) (simax s) (szcond s) c) /\ nrm c < 1e18 /\ nrm c <= schi s).
    { intros c Hc. unfold nrm. destruct (Nat.eq_dec c (simax s)) as [->|Hne].
      - rewrite !set1_same. split; [reflexivity|]. lra.
      - rewrite !set1_other by exact Hne. destruct (Hs c (P3 c Hc Hne)) as [E E'].
        split; [exact E|]. split; [exact E'|]. apply P5, P3; assumption. }
    assert (Hchi' : nrm (imax_of nc nrm) <= schi s) by (apply Hnrm, I1).
    split; [right; split; [apply Hnrm, I1|split; [reflexivity|split; [exact P1|split; [exact I1|split; [reflexivity|exact I2]]]]]|].
    split; [|split; [|split]].
    + intros c Hc. destruct (Hnrm c Hc) as (A1 & A2 & _). split; assumption.
    + intros c c' Hc. destruct (Nat.eq_dec c' (simax s)) as [->|Hne'].
      * rewrite set1_same, set1_other by lia. apply Ht; [apply P3; lia|exact Hcur].
      * rewrite (set1_other _ _ _ c') by exact Hne'. destruct (Nat.eq_dec c (simax s)) as [->|Hne].
        -- rewrite set1_same. apply differ_sym. apply Ht; [apply P3; lia|exact Hcur].
        -- rewrite set1_other by exact Hne.
           assert (c' < ns)%nat by (apply P3; lia). apply Hd. lia.
    + intros c w Hc Hw. apply Htodo, Hless in Hw. destruct Hw as [Hw Hdf].
      destruct (Nat.eq_dec c (simax s)) as [->|Hne].
      * rewrite set1_same. exact Hdf.
      * rewrite set1_other by exact Hne. apply Ht; [apply P3; assumption|exact Hw].
    + intros w. destruct (Hall w) as [H|[(c & Hc & Hag)|H]].
      * destruct (Hmore w H) as [H'|H']; [left; apply Htodo; exact H'|].
        right. left. exists (simax s). split; [exact P2|]. rewrite set1_same. exact H'.
      * destruct (Nat.eq_dec c (simax s)) as [->|Hne].
        -- right. right. rewrite (dw_agree w _ Hag). destruct (Hs _ Hc) as [<- _]. pose proof (P6 Hc). lra.
        -- right. left. exists c. split; [apply P4, Hc|]. rewrite set1_other by exact Hne. exact Hag.
      * right. right. lra.
Qed.

(** One round *)
Lemma step_cases s : sinv s ->
  match search_step n nc ahat L D s with
  | None => sk s = (n - 1)%nat /\ schi s <= sdist s (sk s) + sleft s * sleft s / D (sk s)
  | Some s' =>
      (exists k', sk s = S k' /\ sdist s (sk s) + sleft s * sleft s / D (sk s) < schi s /\
         s' = down s k' (sdist s (S k') + sleft s * sleft s / D (S k'))) \/
      (sk s = O /\ sdist s (sk s) + sleft s * sleft s / D (sk s) < schi s /\
         s' = advance 0 (store s (sdist s O + sleft s * sleft s / D O))) \/
      ((S (sk s) < n)%nat /\ schi s <= sdist s (sk s) + sleft s * sleft s / D (sk s) /\ s' = advance (S (sk s)) s)
  end.
Proof.
  intros HI. pose proof (si_k s HI) as Hk. unfold search_step. cbv zeta.
  destruct (Rlt_dec _ _) as [Hlt|Hge].
  - destruct (sk s) as [|k'] eqn:Ek.
    + right. left. split; [reflexivity|]. split; [exact Hlt|]. unfold store.
      destruct (Nat.ltb _ _); reflexivity.
    + left. exists k'. split; [reflexivity|]. split; [exact Hlt|]. reflexivity.
  - destruct (Nat.eqb_spec (sk s) (n - 1)) as [E|E].
    + split; [exact E|lra].
    + right. right. split; [lia|]. split; [lra|reflexivity].
Qed.
Lemma step_inv s s' : sinv s -> search_step n nc ahat L D s = Some s' -> sinv s'.
Proof.
  intros HI E. pose proof (step_cases s HI) as H. rewrite E in H.
  destruct H as [(k' & Hk & Hlt & ->)|[(Hk & Hlt & ->)|(Hk & Hge & ->)]].
  - apply down_inv; assumption.
  - rewrite Hk in Hlt. apply store_inv; assumption.
  - apply up_inv; assumption.
Qed.

Lemma init_inv : sinv (search_init n nc ahat).
Proof.
  set (s := search_init n nc ahat).
  assert (Hc0 : forall w, cond w (n - 1) = ahat (n - 1)%nat).
  { intros w. unfold cond. rewrite tsum_last by lia. lra. }
  assert (Hk : sk s = (n - 1)%nat) by reflexivity.
  split; rewrite ?Hk.
  - lia.
  - intros i Hi. replace i with (n - 1)%nat by lia. rewrite Hc0. unfold s, search_init. cbn [sacond]. apply set1_same.
  - intros i Hi. unfold pd. rewrite tsum_last by lia. reflexivity.
  - intros i c Hi Hc. rewrite tsum_last by lia. reflexivity.
  - unfold s, search_init. cbn [sleft sacond szcond]. rewrite !set1_same. reflexivity.
  - intros i Hi. replace i with (n - 1)%nat by lia. unfold s, search_init. cbn [sacond szcond sstep]. rewrite !set1_same. apply zz_first.
  - exists O. split; [left; unfold s, search_init; cbn [schi scnt simax]; split; [reflexivity|split; [reflexivity|split; [lia|reflexivity]]]|].
    split; [intros; lia|]. split; [intros; lia|]. split; [intros; lia|].
    intros w. left. exists (n - 1)%nat. split; [lia|]. split; [intros j Hj; lia|].
    unfold s, search_init. cbn [szcond sstep sk]. rewrite !set1_same. split; [apply ahead_first|]. intros. lia.
Qed.

Lemma loop_inv r : forall s s', sinv s -> search_loop r n nc ahat L D s = Done s' ->
  sinv s' /\ sk s' = (n - 1)%nat /\ schi s' <= sdist s' (sk s') + sleft s' * sleft s' / D (sk s').
Proof.
  induction r as [|r IH]; intros s s' HI E; cbn [search_loop] in E; [discriminate|].
  destruct (search_step n nc ahat L D s) as [t|] eqn:Es.
  - apply (IH t); [apply (step_inv s t HI Es)|exact E].
  - injection E as <-. split; [exact HI|]. pose proof (step_cases s HI) as H. rewrite Es in H. exact H.
Qed.

(** ** The search ends *)
Definition bound : nat := Z.to_nat (up (4e18 * sum n D + 2)).
Definition bounded (s : srch) : Prop :=
  (Z.abs (sstep s (sk s)) <= Z.of_nat bound + 1)%Z /\
  forall i, (sk s < i < n)%nat -> (Z.abs (sstep s i) <= Z.of_nat bound)%Z.

Lemma near_bounded s : sinv s -> sdist s (sk s) + sleft s * sleft s / D (sk s) < schi s ->
  (Z.abs (sstep s (sk s)) <= Z.of_nat bound)%Z.
Proof.
  intros HI Hlt. pose proof (si_k s HI) as Hk.
  assert (Hchi : schi s <= 1e18).
  { destruct (si_c s HI) as (ns & [(-> & _)|(H & _)] & _); lra. }
  pose proof (zz_size _ _ _ (si_z s HI (sk s) ltac:(lia))) as Hz. rewrite <- (si_l s HI) in Hz.
  assert (H0 : 0 <= sdist s (sk s)) by (rewrite (si_d s HI) by lia; apply pd_nonneg).
  pose proof (HD (sk s) Hk) as Hd.
  assert (Hdt : D (sk s) <= sum n D) by (apply term_le_sum; [intros i Hi; left; apply HD, Hi|exact Hk]).
  assert (Hq : sleft s * sleft s < 1e18 * D (sk s)).
  { assert (sleft s * sleft s / D (sk s) < 1e18) as H by lra.
    apply (Rmult_lt_compat_r (D (sk s)) _ _ Hd) in H.
    replace (sleft s * sleft s / D (sk s) * D (sk s)) with (sleft s * sleft s) in H by (field; lra). exact H. }
  assert (Ha : Rabs (sleft s) * Rabs (sleft s) = sleft s * sleft s).
  { rewrite <- Rabs_mult. apply Rabs_right. apply Rle_ge, Rle_0_sqr. }
  set (t := Z.abs (sstep s (sk s))) in *. set (x := Rabs (sleft s)) in *.
  assert (Hx : 0 <= x) by apply Rabs_pos.
  assert (Ht0 : (0 <= t)%Z) by (unfold t; lia).
  assert (Ht : IZR t <= 4e18 * sum n D + 2).
  { assert (H1 : x * x < 1e18 * sum n D) by lra.
    clear - H1 Hx Hz. destruct Hz as [Hz _]. destruct (Rle_dec x (1 / 2)).
    - assert (0 <= x * x) by (apply Rmult_le_pos; assumption). lra.
    - assert (x <= 2 * (x * x)) by nra. lra. }
  unfold bound. destruct (archimed (4e18 * sum n D + 2)) as [Hu _].
  assert (Hlt' : IZR t < IZR (up (4e18 * sum n D + 2))) by lra.
  apply lt_IZR in Hlt'. lia.
Qed.

Lemma init_bounded : bounded (search_init n nc ahat).
Proof.
  unfold bounded, search_init. cbn [sk sstep]. rewrite set1_same, first_step_abs. split; [lia|]. intros i Hi. lia.
Qed.
Lemma step_bounded s s' : sinv s -> bounded s -> search_step n nc ahat L D s = Some s' -> bounded s'.
Proof.
  intros HI [Hb1 Hb2] E. pose proof (step_cases s HI) as H. rewrite E in H.
  destruct H as [(k' & Hk & Hlt & ->)|[(Hk & Hlt & ->)|(Hk & Hge & ->)]].
  - pose proof (near_bounded s HI Hlt) as Hnb. unfold bounded, down. cbn [sk sstep].
    rewrite set1_same, first_step_abs. split; [lia|]. intros i Hi. rewrite set1_other by lia.
    destruct (Nat.eq_dec i (sk s)) as [->|Hne]; [exact Hnb|]. apply Hb2. lia.
  - pose proof (near_bounded s HI Hlt) as Hnb. rewrite Hk in Hlt.
    destruct (advance_store s (sdist s 0%nat + sleft s * sleft s / D 0%nat)) as (_ & E2 & _ & _ & _ & _ & E7).
    unfold bounded. rewrite E2, E7. unfold advance. cbn [sstep]. rewrite set1_same, next_abs. rewrite Hk in Hnb, Hb2.
    split; [lia|]. intros i Hi. rewrite set1_other by lia. apply Hb2. lia.
  - unfold bounded, advance. cbn [sk sstep]. rewrite set1_same, next_abs.
    pose proof (Hb2 (S (sk s)) ltac:(lia)). split; [lia|]. intros i Hi. rewrite set1_other by lia. apply Hb2. lia.
Qed.

Fixpoint nsum (m : nat) (f : nat -> nat) : nat := match m with O => O | S j => (nsum j f + f j)%nat end.
Lemma nsum_ext m f g : (forall i, (i < m)%nat -> f i = g i) -> nsum m f = nsum m g.
Proof. induction m as [|m IH]; intros H; cbn [nsum]; [reflexivity|]. rewrite IH, H by (intros; apply H || lia; lia). reflexivity. Qed.
Lemma nsum_one m f g k : (k < m)%nat -> (forall i, (i < m)%nat -> i <> k -> f i = g i) -> (nsum m f + g k = nsum m g + f k)%nat.
Proof.
  induction m as [|m IH]; intros Hk H; [lia|]. cbn [nsum].
  destruct (Nat.eq_dec k m) as [->|Hne].
  - rewrite (nsum_ext m f g) by (intros; apply H; lia). lia.
  - rewrite (H m) by lia. pose proof (IH ltac:(lia) ltac:(intros; apply H; lia)). lia.
Qed.
Lemma nsum_two m f g k : (S k < m)%nat -> (forall i, (i < m)%nat -> i <> k -> i <> S k -> f i = g i) ->
  (nsum m f + g k + g (S k) = nsum m g + f k + f (S k))%nat.
Proof.
  intros Hk H.
  set (h := fun i => if Nat.eqb i k then g i else f i).
  assert (E1 : (nsum m f + h k = nsum m h + f k)%nat).
  { apply nsum_one; [lia|]. intros i Hi Hne. unfold h. apply Nat.eqb_neq in Hne. rewrite Hne. reflexivity. }
  assert (E2 : (nsum m h + g (S k) = nsum m g + h (S k))%nat).
  { apply nsum_one; [lia|]. intros i Hi Hne. unfold h. destruct (Nat.eqb_spec i k); [reflexivity|apply H; lia]. }
  unfold h in E1, E2 at 2. rewrite Nat.eqb_refl in E1. destruct (Nat.eqb_spec (S k) k); [lia|].
  fold h in E1. lia.
Qed.

Definition digit (s : srch) (i : nat) : nat :=
  if Nat.ltb i (sk s) then (bound + 2)%nat else (bound + 2 - Z.to_nat (Z.abs (sstep s i)))%nat.
Definition measure (s : srch) : nat := nsum n (fun i => (digit s i * (bound + 3) ^ i)%nat).

Lemma step_measure s s' : sinv s -> bounded s -> search_step n nc ahat L D s = Some s' -> (measure s' < measure s)%nat.
Proof.
  intros HI Hb E. pose proof (step_bounded s s' HI Hb E) as Hb'. pose proof (si_z s HI) as Hz.
  pose proof (si_k s HI) as Hkn.
  pose proof (step_cases s HI) as H. rewrite E in H.
  destruct H as [(k' & Hk & Hlt & ->)|[(Hk & Hlt & ->)|(Hk & Hge & ->)]].
  - set (s' := down s k' (sdist s (S k') + sleft s * sleft s / D (S k'))) in *. unfold measure.
    assert (Dk : digit s' k' = (bound + 1)%nat /\ digit s k' = (bound + 2)%nat).
    { unfold digit, s', down. cbn [sk sstep]. rewrite set1_same, first_step_abs, Hk.
      destruct (Nat.ltb_spec k' k'); [lia|]. destruct (Nat.ltb_spec k' (S k')); [|lia]. split; lia. }
    pose proof (nsum_one n (fun i => (digit s' i * (bound + 3) ^ i)%nat) (fun i => (digit s i * (bound + 3) ^ i)%nat) k' ltac:(lia)) as HN.
    cbv beta in HN. destruct Dk as [D1 D2]. rewrite D1, D2 in HN.
    assert (0 < (bound + 3) ^ k')%nat by (apply Nat.neq_0_lt_0, Nat.pow_nonzero; lia).
    assert (HN' : (nsum n (fun i => (digit s' i * (bound + 3) ^ i)%nat) + (bound + 2) * (bound + 3) ^ k' =
                   nsum n (fun i => (digit s i * (bound + 3) ^ i)%nat) + (bound + 1) * (bound + 3) ^ k')%nat).
    { apply HN. intros i Hi Hne. f_equal. unfold digit, s', down. cbn [sk sstep]. rewrite set1_other, Hk by exact Hne.
      destruct (Nat.ltb_spec i k'), (Nat.ltb_spec i (S k')); lia. }
    clear HN. set (p := ((bound + 3) ^ k')%nat) in *. clearbody p. nia.
  - destruct (advance_store s (sdist s 0%nat + sleft s * sleft s / D 0%nat)) as (_ & E2 & _ & _ & _ & _ & E7).
    set (s' := advance 0 (store s (sdist s 0%nat + sleft s * sleft s / D 0%nat))) in *. unfold measure.
    pose proof (near_bounded s HI Hlt) as Hnb. rewrite Hk in Hnb.
    assert (Hnz : sstep s O <> 0%Z) by (apply (zz_nonzero _ _ _ (Hz O ltac:(lia)))).
    assert (Dk : (digit s' O + 1 = digit s O)%nat).
    { unfold digit. rewrite E7, E2, Hk. unfold advance. cbn [sstep]. rewrite set1_same, next_abs.
      destruct (Nat.ltb_spec 0 0); lia. }
    pose proof (nsum_one n (fun i => (digit s' i * (bound + 3) ^ i)%nat) (fun i => (digit s i * (bound + 3) ^ i)%nat) O Hn) as HN.
    cbv beta in HN. rewrite Nat.pow_0_r in HN.
    assert (HN' : (nsum n (fun i => (digit s' i * (bound + 3) ^ i)%nat) + digit s O * 1 =
                   nsum n (fun i => (digit s i * (bound + 3) ^ i)%nat) + digit s' O * 1)%nat).
    { apply HN. intros i Hi Hne. f_equal. unfold digit. rewrite E7, E2, Hk. unfold advance. cbn [sstep].
      rewrite set1_other by exact Hne. reflexivity. }
    lia.
  - set (s' := advance (S (sk s)) s) in *. unfold measure. destruct Hb as [Hb1 Hb2].
    pose proof (Hb2 (S (sk s)) ltac:(lia)) as Hb3.
    assert (Hnz : sstep s (S (sk s)) <> 0%Z) by (apply (zz_nonzero _ _ _ (Hz (S (sk s)) ltac:(lia)))).
    assert (Dk : (digit s' (S (sk s)) + 1 = digit s (S (sk s)))%nat /\ digit s' (sk s) = (bound + 2)%nat).
    { unfold digit, s', advance. cbn [sk sstep]. rewrite set1_same, next_abs.
      destruct (Nat.ltb_spec (S (sk s)) (S (sk s))); [lia|]. destruct (Nat.ltb_spec (S (sk s)) (sk s)); [lia|].
      destruct (Nat.ltb_spec (sk s) (S (sk s))); [|lia]. split; lia. }
    pose proof (nsum_two n (fun i => (digit s' i * (bound + 3) ^ i)%nat) (fun i => (digit s i * (bound + 3) ^ i)%nat) (sk s) Hk) as HN.
    cbv beta in HN. rewrite Nat.pow_succ_r' in HN. destruct Dk as [D1 D2]. rewrite D2 in HN.
    assert (0 < (bound + 3) ^ (sk s))%nat by (apply Nat.neq_0_lt_0, Nat.pow_nonzero; lia).
    assert (HN' : forall i, (i < n)%nat -> i <> sk s -> i <> S (sk s) ->
       (digit s' i * (bound + 3) ^ i)%nat = (digit s i * (bound + 3) ^ i)%nat).
    { intros i Hi Hne Hne'. f_equal. unfold digit, s', advance. cbn [sk sstep]. rewrite set1_other by exact Hne'.
      destruct (Nat.ltb_spec i (sk s)), (Nat.ltb_spec i (S (sk s))); lia. }
    specialize (HN HN'). rewrite <- D1 in HN.
    set (p := ((bound + 3) ^ sk s)%nat) in *. set (b := bound) in *.
    set (x := nsum n _) in *. set (y := nsum n _) in *.
    set (d1 := digit s' (S (sk s))) in *. set (d2 := digit s (sk s)) in *.
    clearbody p b x y d1 d2. clear - HN H. nia.
Qed.

Lemma loop_ends : forall m s, (measure s < m)%nat -> sinv s -> bounded s ->
  exists s', search_loop m n nc ahat L D s = Done s'.
Proof.
  induction m as [|m IH]; intros s Hm HI Hb; [lia|]. cbn [search_loop].
  destruct (search_step n nc ahat L D s) as [t|] eqn:E; [|exists s; reflexivity].
  apply IH.
  - pose proof (step_measure s t HI Hb E). lia.
  - apply (step_inv s t HI E).
  - apply (step_bounded s t HI Hb E).
Qed.

(** What the loop leaves *)
Lemma loop_result r s : search_loop r n nc ahat L D (search_init n nc ahat) = Done s ->
  exists ns, phase s ns /\
    (forall c, (c < ns)%nat -> snorms s c = dw (scols s c) /\ snorms s c < 1e18) /\
    (forall c c', (c < c' < ns)%nat -> differ n (scols s c) (scols s c')) /\
    (forall w, (exists c, (c < ns)%nat /\ agree 0 w (scols s c)) \/ schi s <= dw w).
Proof.
  intros E. destruct (loop_inv r _ _ init_inv E) as (HI & Hk & Hfar).
  destruct (si_c s HI) as (ns & Hp & Hs & Hd & Ht & Hall). exists ns.
  split; [exact Hp|]. split; [exact Hs|]. split; [exact Hd|].
  intros w. destruct (Hall w) as [(i & Hi & Hag & Ha & Hne)|H]; [|exact H].
  assert (Ei : i = sk s) by lia. subst i. right.
  eapply Rle_trans; [exact Hfar|]. apply todo_level_far; assumption.
Qed.
End Search.
