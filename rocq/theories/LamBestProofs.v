(** The result of the search and of the whole method *)
From Coq Require Import Reals ZArith List Lra Lia Arith Permutation Sorted.
From Verif Require Import LinSpec LinProofs LamModel LamSpec LamProofs LamTermProofs LamSearchProofs.
Import ListNotations.
Local Open Scope R_scope.

(** ** argsort *)
Lemma insert_perm p l : Permutation (insert p l) (p :: l).
Proof.
  induction l as [|q l IH]; cbn [insert]; [reflexivity|].
  destruct (Rlt_dec _ _); [reflexivity|]. rewrite IH. apply perm_swap.
Qed.
Lemma fold_insert_perm (x : lvec) l : forall acc,
  Permutation (fold_left (fun l i => insert (i, x i) l) l acc) (map (fun i => (i, x i)) l ++ acc).
Proof.
  induction l as [|i l IH]; intros acc; cbn [fold_left map app]; [reflexivity|].
  rewrite IH, insert_perm. symmetry. apply Permutation_middle.
Qed.
Lemma sorted_pairs_perm n x : Permutation (sorted_pairs n x) (map (fun i => (i, x i)) (seq 0 n)).
Proof. unfold sorted_pairs. rewrite fold_insert_perm, app_nil_r. reflexivity. Qed.
Definition le2 (p q : nat * R) : Prop := snd p <= snd q.
Lemma insert_sorted p l : StronglySorted le2 l -> StronglySorted le2 (insert p l).
Proof.
  induction l as [|q l IH]; intros H; cbn [insert]; [repeat constructor|].
  inversion H as [|? ? Hs Hf]; subst. destruct (Rlt_dec (snd p) (snd q)) as [Hlt|Hge].
  - constructor; [exact H|]. constructor; [unfold le2; lra|].
    eapply Forall_impl; [|exact Hf]. intros r Hr. unfold le2 in *. lra.
  - constructor; [apply IH; exact Hs|]. eapply Permutation_Forall; [symmetry; apply insert_perm|].
    constructor; [unfold le2; lra|exact Hf].
Qed.
Lemma sorted_pairs_sorted n x : StronglySorted le2 (sorted_pairs n x).
Proof.
  unfold sorted_pairs. generalize (seq 0 n). intros l.
  assert (G : forall acc, StronglySorted le2 acc -> StronglySorted le2 (fold_left (fun l i => insert (i, x i) l) l acc)).
  { induction l as [|i l IH]; intros acc Ha; cbn [fold_left]; [exact Ha|]. apply IH, insert_sorted, Ha. }
  apply G. constructor.
Qed.
Lemma sorted_pairs_length n x : length (sorted_pairs n x) = n.
Proof. rewrite (Permutation_length (sorted_pairs_perm n x)), map_length, seq_length. reflexivity. Qed.
Lemma sorted_pairs_fst n x : Permutation (map fst (sorted_pairs n x)) (seq 0 n).
Proof. rewrite (sorted_pairs_perm n x), map_map. cbn [fst]. rewrite map_id. reflexivity. Qed.
Lemma sorted_pairs_nodup n x : NoDup (map fst (sorted_pairs n x)).
Proof. eapply Permutation_NoDup; [symmetry; apply sorted_pairs_fst|apply seq_NoDup]. Qed.
Lemma sorted_pairs_in n x p : In p (sorted_pairs n x) -> (fst p < n)%nat /\ snd p = x (fst p).
Proof.
  intros H. apply (Permutation_in _ (sorted_pairs_perm n x)) in H. apply in_map_iff in H.
  destruct H as (i & <- & Hi). apply in_seq in Hi. cbn [fst snd]. split; [lia|reflexivity].
Qed.

Lemma place_nth l : NoDup (map fst l) -> forall p d, (p < length l)%nat -> place (fst (nth p l d)) l = p.
Proof.
  induction l as [|q l IH]; intros Hnd p d Hp; cbn [length] in Hp; [lia|].
  cbn [map] in Hnd. inversion Hnd as [|? ? Hnot Hnd']; subst. destruct p as [|p]; cbn [nth place].
  - rewrite Nat.eqb_refl. reflexivity.
  - destruct (Nat.eqb_spec (fst q) (fst (nth p l d))) as [E|E].
    + exfalso. apply Hnot. rewrite E. apply in_map, nth_In. lia.
    + rewrite IH by (assumption || lia). reflexivity.
Qed.
Lemma nth_place l i d : In i (map fst l) -> fst (nth (place i l) l d) = i /\ (place i l < length l)%nat.
Proof.
  induction l as [|q l IH]; intros H; [contradiction|]. cbn [map] in H. cbn [place length].
  destruct (Nat.eqb_spec (fst q) i) as [E|E]; [split; [exact E|lia]|].
  destruct H as [H|H]; [contradiction|]. destruct (IH H) as [I1 I2]. cbn [nth]. split; [exact I1|lia].
Qed.

Definition pick (n : nat) (x : lvec) (p : nat) : nat := fst (nth p (sorted_pairs n x) (O, 0)).
Lemma permuted_pick {A} n x (v : nat -> A) p : (p < n)%nat -> permuted n (argsort n x) v p = v (pick n x p).
Proof.
  intros Hp. unfold permuted, pick, argsort.
  pose proof (sorted_pairs_nodup n x) as Hnd. pose proof (sorted_pairs_length n x) as Hl.
  destruct (find _ _) as [i|] eqn:E.
  - apply find_some in E. destruct E as [Hi E]. apply Nat.eqb_eq in E. f_equal. rewrite <- E.
    symmetry. apply nth_place. eapply Permutation_in; [symmetry; apply sorted_pairs_fst|exact Hi].
  - exfalso. pose proof (find_none _ _ E (fst (nth p (sorted_pairs n x) (O, 0)))) as F. cbv beta in F.
    rewrite (place_nth _ Hnd) in F by lia. rewrite Nat.eqb_refl in F.
    assert (In (fst (nth p (sorted_pairs n x) (O, 0))) (seq 0 n)) as Hin.
    { eapply Permutation_in; [apply sorted_pairs_fst|]. apply in_map, nth_In. lia. }
    specialize (F Hin). discriminate.
Qed.
Lemma pick_lt n x p : (p < n)%nat -> (pick n x p < n)%nat.
Proof.
  intros Hp. unfold pick. apply (sorted_pairs_in n x). apply nth_In. rewrite sorted_pairs_length. exact Hp.
Qed.
Lemma pick_inj n x p q : (p < q < n)%nat -> pick n x p <> pick n x q.
Proof.
  intros Hpq E. unfold pick in E. pose proof (sorted_pairs_nodup n x) as Hnd. pose proof (sorted_pairs_length n x) as Hl.
  assert (P1 := place_nth _ Hnd p (O, 0) ltac:(lia)). assert (P2 := place_nth _ Hnd q (O, 0) ltac:(lia)).
  rewrite E, P2 in P1. lia.
Qed.
Lemma strong_nth (l : list (nat * R)) d : StronglySorted le2 l -> forall p q, (p < q < length l)%nat -> le2 (nth p l d) (nth q l d).
Proof.
  induction l as [|a l IH]; intros H p q Hpq; cbn [length] in Hpq; [lia|].
  inversion H as [|? ? Hs Hf]; subst. destruct q as [|q]; [lia|]. destruct p as [|p]; cbn [nth].
  - rewrite Forall_forall in Hf. apply Hf, nth_In. lia.
  - apply IH; [exact Hs|lia].
Qed.
Lemma pick_le n x p q : (p < q < n)%nat -> x (pick n x p) <= x (pick n x q).
Proof.
  intros Hpq. pose proof (sorted_pairs_length n x) as Hl.
  pose proof (strong_nth _ (O, 0) (sorted_pairs_sorted n x) p q ltac:(lia)) as H. unfold le2 in H.
  assert (E : forall r, (r < n)%nat -> snd (nth r (sorted_pairs n x) (O, 0)) = x (pick n x r)).
  { intros r Hr. apply (sorted_pairs_in n x). apply nth_In. lia. }
  rewrite !E in H by lia. exact H.
Qed.
Lemma pick_onto n x i : (i < n)%nat -> exists p, (p < n)%nat /\ pick n x p = i.
Proof.
  intros Hi. exists (place i (sorted_pairs n x)).
  assert (Hin : In i (map fst (sorted_pairs n x))).
  { eapply Permutation_in; [symmetry; apply sorted_pairs_fst|]. apply in_seq. lia. }
  destruct (nth_place (sorted_pairs n x) i (O, 0) Hin) as [H1 H2]. rewrite sorted_pairs_length in H2.
  split; [exact H2|exact H1].
Qed.

(** ** Distances *)
Lemma lower_column n L y i : unit_lower n L -> (i < n)%nat ->
  sum n (fun j => L j i * y j) = y i + tsum n i (fun j => y j * L j i).
Proof.
  intros [H1 H0] Hi. unfold tsum.
  enough (E : sum n (fun j => L j i * y j - (if Nat.leb j i then 0 else y j * L j i)) = y i)
    by (rewrite sum_minus in E; lra).
  rewrite (sum_one n _ i Hi).
  - rewrite Nat.leb_refl, H1 by exact Hi. lra.
  - intros j Hj Hne. destruct (Nat.leb_spec j i).
    + rewrite H0 by lia. lra.
    + lra.
Qed.
Lemma yof_solves n ahat L w : unit_lower n L ->
  forall i, (i < n)%nat -> sum n (fun j => L j i * yof n ahat L w j) = IZR (w i) - ahat i.
Proof.
  intros HL i Hi. rewrite lower_column by assumption.
  rewrite (yof_eq n 1 ahat L ltac:(lia) ltac:(lia) w i Hi) at 1. unfold cond. lra.
Qed.
Lemma yof_unique n ahat L w u : unit_lower n L ->
  (forall i, (i < n)%nat -> sum n (fun j => L j i * u j) = IZR (w i) - ahat i) ->
  forall i, (i < n)%nat -> u i = yof n ahat L w i.
Proof.
  intros HL H. assert (G : forall m i, (n - m <= i < n)%nat -> u i = yof n ahat L w i).
  { induction m as [|m IH]; intros i Hi; [lia|].
    pose proof (H i ltac:(lia)) as E. rewrite lower_column in E by (assumption || lia).
    rewrite (yof_eq n 1 ahat L ltac:(lia) ltac:(lia) w i ltac:(lia)). unfold cond.
    rewrite (tsum_ext n i (fun j => yof n ahat L w j * L j i) (fun j => u j * L j i)); [lra|].
    intros j Hj. rewrite (IH j) by lia. reflexivity. }
  intros i Hi. apply (G n). lia.
Qed.
Lemma lower_solve n L b : unit_lower n L -> exists x, forall k, (k < n)%nat -> lmv n L x k = b k.
Proof.
  intros [H1 H0].
  assert (G : forall m, (m <= n)%nat -> exists x, forall k, (k < m)%nat -> lmv n L x k = b k).
  { induction m as [|m IH]; intros Hm; [exists (fun _ => 0); intros; lia|].
    destruct (IH ltac:(lia)) as [x Hx].
    assert (E : forall v k, (k <= m)%nat -> lmv n L (set1 x m v) k = sum k (fun c => L k c * x c) + (if Nat.eqb k m then v else x k)).
    { intros v k Hk. unfold lmv. rewrite (sum_cut n (S k)) by (try lia; intros i Hi; rewrite H0 by lia; lra).
      cbn [sum]. rewrite H1 by lia. f_equal.
      - apply sum_ext. intros c Hc. rewrite set1_other by lia. reflexivity.
      - unfold set1. lra. }
    assert (E' : forall k, (k < m)%nat -> lmv n L x k = sum k (fun c => L k c * x c) + x k).
    { intros k Hk. unfold lmv. rewrite (sum_cut n (S k)) by (try lia; intros i Hi; rewrite H0 by lia; lra).
      cbn [sum]. rewrite H1 by lia. lra. }
    exists (set1 x m (b m - sum m (fun c => L m c * x c))). intros k Hk. rewrite E by lia.
    destruct (Nat.eqb_spec k m) as [->|Hne]; [lra|]. rewrite <- E' by lia. apply Hx. lia. }
  apply (G n (le_n n)).
Qed.

Lemma LtDL_mv n L D y i : lmv n (LtDL n L D) y i = sum n (fun k => L k i * (D k * lmv n L y k)).
Proof.
  unfold lmv, LtDL.
  rewrite (sum_ext n _ (fun j => sum n (fun k => L k i * D k * L k j * y j))) by (intros; symmetry; apply sum_scalr).
  rewrite sum_swap. apply sum_ext. intros k Hk. rewrite <- sum_scal, <- sum_scal. apply sum_ext. intros; lra.
Qed.

Lemma distance_dw n ahat L D w e : unit_lower n L -> (forall i, (i < n)%nat -> 0 < D i) ->
  (distance n (LtDL n L D) ahat w e <-> e = dw n ahat L D w).
Proof.
  intros HL HD. unfold distance.
  assert (K : forall y, leq n (lmv n (LtDL n L D) y) (fun i => IZR (w i) - ahat i) ->
     ldot n (fun i => IZR (w i) - ahat i) y = dw n ahat L D w).
  { intros y Hy.
    set (u := fun k => D k * lmv n L y k).
    assert (Hu : forall i, (i < n)%nat -> u i = yof n ahat L w i).
    { apply (yof_unique n ahat L w u HL). intros i Hi. rewrite <- (Hy i Hi), LtDL_mv. reflexivity. }
    rewrite (ldot_ext n _ (lmv n (ltr L) u) y y).
    - rewrite <- ldot_mv. unfold ldot, dw. apply sum_ext. intros k Hk. rewrite <- (Hu k Hk). unfold u.
      pose proof (HD k Hk). field. lra.
    - intros i Hi. rewrite <- (Hy i Hi), LtDL_mv. reflexivity.
    - intros i Hi. reflexivity. }
  split.
  - intros (y & Hy & ->). apply K, Hy.
  - intros ->. destruct (lower_solve n L (fun k => yof n ahat L w k / D k) HL) as [y Hy].
    assert (Hq : leq n (lmv n (LtDL n L D) y) (fun i => IZR (w i) - ahat i)).
    { intros i Hi. rewrite LtDL_mv, <- (yof_solves n ahat L w HL i Hi). apply sum_ext. intros k Hk.
      rewrite (Hy k Hk). pose proof (HD k Hk). field. lra. }
    exists y. split; [exact Hq|]. symmetry. apply K, Hq.
Qed.

(** ** The search returns the best vectors *)
Definition key (n : nat) (w : nat -> Z) : list Z := map w (seq 0 n).
Lemma key_agree n w w' : agree n 0 w w' -> key n w = key n w'.
Proof. intros H. unfold key. apply map_ext_in. intros i Hi. apply in_seq in Hi. apply H. lia. Qed.
Lemma key_differ n w w' : differ n w w' -> key n w <> key n w'.
Proof.
  intros (i & Hi & Hne) E. apply Hne. unfold key in E.
  assert (K : nth_error (map w (seq 0 n)) i = nth_error (map w' (seq 0 n)) i) by (rewrite E; reflexivity).
  rewrite !nth_error_map in K.
  assert (S0 : nth_error (seq 0 n) i = Some i).
  { rewrite (nth_error_nth' _ O) by (rewrite seq_length; exact Hi). rewrite seq_nth by exact Hi. reflexivity. }
  rewrite S0 in K. cbn [option_map] in K. injection K as K. exact K.
Qed.
Lemma nodup_map_seq {A} (f : nat -> A) : forall m b, (forall i j, (b <= i < j)%nat -> (j < b + m)%nat -> f i <> f j) -> NoDup (map f (seq b m)).
Proof.
  induction m as [|m IH]; intros b H; cbn [seq map]; constructor.
  - intros Hin. apply in_map_iff in Hin. destruct Hin as (j & E & Hj). apply in_seq in Hj.
    apply (H b j); [lia|lia|auto].
  - apply IH. intros i j Hi Hj. apply H; lia.
Qed.

Lemma search_done r n nc ahat L D zs ds : search r n nc ahat L D = Done (zs, ds) ->
  (0 < n)%nat /\ (0 < nc)%nat /\ exists s, search_loop r n nc ahat L D (search_init n nc ahat) = Done s /\
    zs = permuted nc (argsort nc (snorms s)) (scols s) /\ ds = permuted nc (argsort nc (snorms s)) (snorms s).
Proof.
  intros E. unfold search in E. destruct (Nat.eqb_spec n 0), (Nat.eqb_spec nc 0); cbn [orb] in E; try discriminate.
  split; [lia|]. split; [lia|].
  destruct (search_loop r n nc ahat L D (search_init n nc ahat)) as [| | |s]; cbn [bind] in E; try discriminate.
  exists s. split; [reflexivity|]. cbv zeta in E.
  assert (E' : (permuted nc (argsort nc (snorms s)) (scols s), permuted nc (argsort nc (snorms s)) (snorms s)) = (zs, ds))
    by congruence.
  split; congruence.
Qed.

Lemma search_best r n nc ahat L D zs ds : unit_lower n L -> (forall i, (i < n)%nat -> 0 < D i) ->
  within n (LtDL n L D) ahat nc 1e18 -> search r n nc ahat L D = Done (zs, ds) ->
  best n (LtDL n L D) ahat nc zs ds.
Proof.
  intros HL HD (ws & Hw1 & Hw2) E.
  destruct (search_done r n nc ahat L D zs ds E) as (Hn & Hnc & s & El & -> & ->).
  destruct (loop_result n nc ahat L D Hn Hnc HL HD r s El) as (ns & Hp & Hs & Hd & Hall).
  assert (Hfull : schi s < 1e18 /\ ns = nc /\ forall c, (c < nc)%nat -> snorms s c <= schi s).
  { destruct Hp as [(P1 & P2 & P3 & P4)|(P1 & P2 & P3 & P4 & P5 & P6)]; [|split; [exact P1|split; [exact P2|exact P6]]].
    exfalso.
    assert (Hnd : NoDup (map (fun c => key n (ws c)) (seq 0 nc))).
    { apply nodup_map_seq. intros i j Hij Hj. apply key_differ, Hw2. lia. }
    assert (Hin : incl (map (fun c => key n (ws c)) (seq 0 nc)) (map (fun c => key n (scols s c)) (seq 0 ns))).
    { intros x Hx. apply in_map_iff in Hx. destruct Hx as (c & <- & Hc). apply in_seq in Hc.
      destruct (Hw1 c ltac:(lia)) as (e & He & Hlt). apply (distance_dw n ahat L D _ e HL HD) in He.
      destruct (Hall (ws c)) as [(c' & Hc' & Hag)|H]; [|lra].
      rewrite (key_agree n _ _ Hag). apply in_map_iff. exists c'. split; [reflexivity|]. apply in_seq. lia. }
    pose proof (NoDup_incl_length Hnd Hin) as Hlen. rewrite !map_length, !seq_length in Hlen. lia. }
  destruct Hfull as (P1 & -> & P3). set (x := snorms s) in *.
  split; [|split].
  - intros c Hc. rewrite !permuted_pick by exact Hc. apply distance_dw; [exact HL|exact HD|].
    apply Hs, pick_lt, Hc.
  - intros c c' Hc. rewrite !permuted_pick by lia.
    pose proof (pick_lt nc x c ltac:(lia)). pose proof (pick_lt nc x c' ltac:(lia)). pose proof (pick_inj nc x c c' Hc).
    split; [|apply pick_le; exact Hc].
    destruct (Nat.lt_ge_cases (pick nc x c) (pick nc x c')) as [Hlt|Hge]; [apply Hd; lia|].
    destruct (Hd (pick nc x c') (pick nc x c) ltac:(lia)) as (i & Hi & Hne). exists i. split; [exact Hi|congruence].
  - intros w d c Hc Hdist Hdif. rewrite permuted_pick by exact Hc.
    apply (distance_dw n ahat L D _ d HL HD) in Hdist. subst d.
    destruct (Hall w) as [(c' & Hc' & Hag)|H].
    + exfalso. destruct (pick_onto nc x c' Hc') as (p & Hp' & Ep).
      pose proof (Hdif p Hp') as Hdf. rewrite permuted_pick, Ep in Hdf by exact Hp'.
      destruct Hdf as (i & Hi & Hne). apply Hne, Hag. lia.
    + eapply Rle_trans; [apply P3, pick_lt, Hc|exact H].
Qed.

Lemma search_ends n nc ahat L D : (0 < n)%nat -> (0 < nc)%nat -> unit_lower n L -> (forall i, (i < n)%nat -> 0 < D i) ->
  exists r zs ds, search r n nc ahat L D = Done (zs, ds).
Proof.
  intros Hn Hnc HL HD.
  destruct (loop_ends n nc ahat L D Hn Hnc HL HD (S (measure n D (search_init n nc ahat))) (search_init n nc ahat))
    as [s Es].
  - lia.
  - apply init_inv; assumption.
  - apply init_bounded; assumption.
  - exists (S (measure n D (search_init n nc ahat))). unfold search.
    destruct (Nat.eqb_spec n 0); [lia|]. destruct (Nat.eqb_spec nc 0); [lia|]. cbn [orb]. rewrite Es. cbn [bind].
    eexists. eexists. reflexivity.
Qed.
Lemma search_loop_more n nc ahat L D : forall r m s s', (r <= m)%nat ->
  search_loop r n nc ahat L D s = Done s' -> search_loop m n nc ahat L D s = Done s'.
Proof.
  induction r as [|r IH]; intros m s s' Hm E; [discriminate|]. destruct m as [|m]; [lia|].
  cbn [search_loop] in E |- *. destruct (search_step n nc ahat L D s) as [t|]; [|exact E]. apply (IH m); [lia|exact E].
Qed.
Lemma search_more n nc ahat L D r m x : (r <= m)%nat ->
  search r n nc ahat L D = Done x -> search m n nc ahat L D = Done x.
Proof.
  intros Hm E. unfold search in *. destruct (orb _ _); [discriminate|].
  destruct (search_loop r n nc ahat L D (search_init n nc ahat)) as [| | |s] eqn:El; cbn [bind] in E; try discriminate.
  rewrite (search_loop_more n nc ahat L D r m _ s Hm El). exact E.
Qed.

(** ** The whole method *)
Lemma Int_part_IZR z : Int_part (IZR z) = z.
Proof.
  pose proof (Int_part_bounds (IZR z)) as [H1 H2].
  assert (Int_part (IZR z) <= z)%Z by (apply le_IZR; exact H1).
  assert (z < Int_part (IZR z) + 1)%Z by (apply lt_IZR; rewrite plus_IZR; exact H2). lia.
Qed.
Lemma Int_part_between x z : IZR z <= x < IZR z + 1 -> Int_part x = z.
Proof.
  intros [H1 H2]. pose proof (Int_part_bounds x) as [H3 H4].
  assert (Int_part x < z + 1)%Z by (apply lt_IZR; rewrite plus_IZR; lra).
  assert (z < Int_part x + 1)%Z by (apply lt_IZR; rewrite plus_IZR; lra). lia.
Qed.
Lemma rnd_IZR z : rnd (IZR z) = z.
Proof.
  unfold rnd. destruct (Rle_dec 0 (IZR z)).
  - apply Int_part_between. lra.
  - assert (E : Int_part (- IZR z + / 2) = (- z)%Z) by (apply Int_part_between; rewrite opp_IZR; lra). lia.
Qed.

Lemma rnd_small x : - / 2 < x < / 2 -> rnd x = 0%Z.
Proof.
  intros H. unfold rnd. destruct (Rle_dec 0 x).
  - apply Int_part_between. cbn. lra.
  - assert (E : Int_part (- x + / 2) = 0%Z) by (apply Int_part_between; cbn; lra). lia.
Qed.

Lemma zsum_IZR n f : IZR (zsum n f) = sum n (fun i => IZR (f i)).
Proof. induction n as [|n IH]; cbn [zsum sum]; [reflexivity|]. rewrite plus_IZR, IH. reflexivity. Qed.

(** Integer vectors transformed by the transpose of an integer matrix *)
Definition ztmv (N : nat) (A : nat -> nat -> Z) (z : nat -> Z) : nat -> Z := fun i => zsum N (fun j => (A j i * z j)%Z).
Lemma ztmv_IZR N A z i : IZR (ztmv N A z i) = lmv N (ltr (zmat A)) (zvec z) i.
Proof. unfold ztmv. rewrite zsum_IZR. apply sum_ext. intros j Hj. rewrite mult_IZR. reflexivity. Qed.

Lemma lmv_minus N A x y i : lmv N A (fun j => x j - y j) i = lmv N A x i - lmv N A y i.
Proof. unfold lmv. rewrite <- sum_minus. apply sum_ext. intros; lra. Qed.

(** A change of variables keeps distances *)
Lemma distance_change N Q a A B w c e :
  lmeq N N (lmm N (zmat A) (zmat B)) lid ->
  (distance N Q a w e -> leq N c (lmv N (ltr (zmat A)) a) -> distance N (congr N Q (zmat A)) c (ztmv N A w) e).
Proof.
  intros HAB (y & Hy & ->) Hc.
  set (r := fun i => IZR (w i) - a i).
  assert (Hr : leq N (fun i => IZR (ztmv N A w i) - c i) (lmv N (ltr (zmat A)) r)).
  { intros i Hi. rewrite ztmv_IZR, (Hc i Hi). unfold r. rewrite (lmv_minus N _ (fun i => IZR (w i)) a). reflexivity. }
  exists (lmv N (zmat B) y). split.
  - intros i Hi. rewrite (Hr i Hi). unfold congr. rewrite lmv_mm.
    apply (lmv_ext N N); try assumption; [apply lmeq_refl|]. intros j Hj. unfold r. rewrite <- (Hy j Hj).
    rewrite lmv_mm. apply (lmv_ext N N); try assumption; [apply lmeq_refl|]. intros k Hk.
    rewrite <- lmv_mm. rewrite (lmv_ext N N _ lid y y HAB (fun j _ => eq_refl) k Hk). apply lmv_id, Hk.
  - rewrite (ldot_ext N _ (lmv N (ltr (zmat A)) r) _ (lmv N (zmat B) y) Hr (fun i _ => eq_refl)).
    rewrite <- ldot_mv. apply ldot_ext; [intros i Hi; reflexivity|]. intros i Hi. symmetry.
    rewrite <- lmv_mm. rewrite (lmv_ext N N _ lid y y HAB (fun j _ => eq_refl) i Hi). apply lmv_id, Hi.
Qed.
Lemma ztmv_inverse N A B z : lmeq N N (lmm N (zmat B) (zmat A)) lid -> forall i, (i < N)%nat -> ztmv N A (ztmv N B z) i = z i.
Proof.
  intros HBA i Hi. apply eq_IZR. rewrite ztmv_IZR.
  rewrite (lmv_ext N N _ _ (zvec (ztmv N B z)) (lmv N (ltr (zmat B)) (zvec z)) (lmeq_refl _ _ _)); [|intros j Hj; apply ztmv_IZR|exact Hi].
  rewrite <- lmv_mm.
  rewrite (lmv_ext N N (lmm N (ltr (zmat A)) (ltr (zmat B))) lid (zvec z) (zvec z)); [apply lmv_id, Hi| | |exact Hi].
  - intros p q Hp Hq. rewrite <- lmm_tr. unfold ltr. rewrite (HBA q p Hq Hp). unfold lid. rewrite Nat.eqb_sym. reflexivity.
  - intros j Hj. reflexivity.
Qed.
Lemma distance_ext N Q Q' a a' w w' e : lmeq N N Q Q' -> leq N a a' -> (forall i, (i < N)%nat -> w i = w' i) ->
  distance N Q a w e -> distance N Q' a' w' e.
Proof.
  intros HQ Ha Hw (y & Hy & ->). exists y. split.
  - intros i Hi. rewrite <- (lmv_ext N N Q Q' y y HQ (fun j _ => eq_refl) i Hi), (Hy i Hi), (Hw i Hi), (Ha i Hi). reflexivity.
  - apply ldot_ext; [|intros i Hi; reflexivity]. intros i Hi. rewrite (Hw i Hi), (Ha i Hi). reflexivity.
Qed.
Lemma distance_shift N Q a w c e : distance N Q a w e <-> distance N Q (fun i => a i - IZR (c i)) (fun i => (w i - c i)%Z) e.
Proof.
  unfold distance.
  assert (E : forall i, IZR (w i - c i) - (a i - IZR (c i)) = IZR (w i) - a i) by (intros i; rewrite minus_IZR; lra).
  split; intros (y & Hy & ->); exists y; (split; [intros i Hi; rewrite (Hy i Hi), ?E; reflexivity|]);
    apply ldot_ext; intros i Hi; rewrite ?E; reflexivity.
Qed.

(** Eigen's inverse: a right inverse of every matrix that has an inverse *)
Definition inverts (N : nat) (inv : lmat -> lmat) : Prop :=
  forall A B, lmeq N N (lmm N A B) lid -> lmeq N N (lmm N B A) lid -> lmeq N N (lmm N A (inv A)) lid.
Lemma inverse_unique N A B C : lmeq N N (lmm N B A) lid -> lmeq N N (lmm N A C) lid -> lmeq N N C B.
Proof.
  intros H1 H2 i j Hi Hj.
  rewrite <- (lmm_id_l N N C i j Hi Hj).
  rewrite <- (lmm_ext N _ _ C C N N H1 (lmeq_refl _ _ _) i j Hi Hj).
  rewrite lmm_assoc.
  rewrite (lmm_ext N B B _ lid N N (lmeq_refl _ _ _) H2 i j Hi Hj). apply (lmm_id_r N N); assumption.
Qed.

(** Z maps the best vectors of the transformed problem to the best of the original one *)
Lemma best_back N Q a c A B nc zs ds shift :
  lmeq N N (lmm N (zmat A) (zmat B)) lid -> lmeq N N (lmm N (zmat B) (zmat A)) lid ->
  leq N c (lmv N (ltr (zmat A)) (fun i => a i - IZR (shift i))) ->
  best N (congr N Q (zmat A)) c nc zs ds ->
  best N Q a nc (fun k i => (ztmv N B (zs k) i + shift i)%Z) ds.
Proof.
  intros HAB HBA Hc (B1 & B2 & B3).
  assert (Hback : forall z e, distance N (congr N Q (zmat A)) c z e -> distance N Q a (fun i => (ztmv N B z i + shift i)%Z) e).
  { intros z e Hd. apply (distance_shift N Q a _ shift).
    apply (distance_change N _ c B A z (lmv N (ltr (zmat B)) c) e HBA) in Hd; [|intros i Hi; reflexivity].
    eapply distance_ext; [| | |exact Hd].
    - (* congruence by A and then by B *)
      eapply lmeq_trans; [apply lmeq_sym, congr_mm|].
      eapply lmeq_trans; [apply congr_ext; [apply lmeq_refl|exact HAB]|].
      unfold congr. intros i j Hi Hj.
      assert (ET : lmeq N N (ltr lid) lid).
      { intros r q Hr Hq. unfold ltr, lid. rewrite Nat.eqb_sym. reflexivity. }
      rewrite (lmm_ext N _ _ _ _ N N ET (lmm_id_r N N Q) i j Hi Hj). apply (lmm_id_l N N); assumption.
    - intros i Hi. rewrite (lmv_ext N N _ _ c _ (lmeq_refl _ _ _) Hc i Hi).
      rewrite <- lmv_mm.
      rewrite (lmv_ext N N (lmm N (ltr (zmat B)) (ltr (zmat A))) lid (fun i0 => a i0 - IZR (shift i0)) (fun i0 => a i0 - IZR (shift i0)));
        [apply lmv_id, Hi| |intros j Hj; reflexivity|exact Hi].
      intros p q Hp Hq. rewrite <- lmm_tr. unfold ltr. rewrite (HAB q p Hq Hp). unfold lid. rewrite Nat.eqb_sym. reflexivity.
    - intros i Hi. lia. }
  assert (Hforth : forall w e, distance N Q a w e -> distance N (congr N Q (zmat A)) c (ztmv N A (fun i => (w i - shift i)%Z)) e).
  { intros w e Hd. apply (distance_shift N Q a w shift) in Hd.
    apply (distance_change N Q (fun i => a i - IZR (shift i)) A B (fun i => (w i - shift i)%Z) c e HAB Hd Hc). }
  split; [|split].
  - intros k Hk. apply Hback, B1, Hk.
  - intros k k' Hk. destruct (B2 k k' Hk) as [(i & Hi & Hne) Hle]. split; [|exact Hle].
    destruct (agree_differ N 1 ltac:(lia) ltac:(lia) (fun i => (ztmv N B (zs k) i + shift i)%Z) (fun i => (ztmv N B (zs k') i + shift i)%Z)) as [Hag|Hdf];
      [|exact Hdf].
    exfalso. apply Hne. rewrite <- (ztmv_inverse N A B (zs k) HBA i Hi), <- (ztmv_inverse N A B (zs k') HBA i Hi).
    unfold ztmv at 1 3. clear - Hag Hi.
    assert (E : forall j, (j < N)%nat -> ztmv N B (zs k) j = ztmv N B (zs k') j).
    { intros j Hj. pose proof (Hag j ltac:(lia)) as Hj'. cbv beta in Hj'. lia. }
    apply eq_IZR. rewrite !zsum_IZR. apply sum_ext. intros j Hj. rewrite (E j Hj). reflexivity.
  - intros w d k Hk Hd Hdf. apply (B3 (ztmv N A (fun i => (w i - shift i)%Z)) d k Hk (Hforth w d Hd)).
    intros k' Hk'. destruct (Hdf k' Hk') as (i & Hi & Hne). destruct (agree_differ N 1 ltac:(lia) ltac:(lia) (ztmv N A (fun i => (w i - shift i)%Z)) (zs k')) as [Hag|H]; [|exact H].
    exfalso. apply Hne.
    assert (E : ztmv N B (zs k') i = (w i - shift i)%Z).
    { rewrite <- (ztmv_inverse N B A (fun i => (w i - shift i)%Z) HAB i Hi).
      unfold ztmv at 1 2. apply eq_IZR. rewrite !zsum_IZR. apply sum_ext. intros j Hj.
      rewrite <- (Hag j) by lia. reflexivity. }
    lia.
Qed.
Lemma within_forth N Q a c A B nc d shift :
  lmeq N N (lmm N (zmat A) (zmat B)) lid -> lmeq N N (lmm N (zmat B) (zmat A)) lid ->
  leq N c (lmv N (ltr (zmat A)) (fun i => a i - IZR (shift i))) ->
  within N Q a nc d -> within N (congr N Q (zmat A)) c nc d.
Proof.
  intros HAB HBA Hc (ws & W1 & W2).
  exists (fun k => ztmv N A (fun i => (ws k i - shift i)%Z)). split.
  - intros k Hk. destruct (W1 k Hk) as (e & He & Hlt). exists e. split; [|exact Hlt].
    apply (distance_shift N Q a _ shift) in He.
    apply (distance_change N Q (fun i => a i - IZR (shift i)) A B (fun i => (ws k i - shift i)%Z) c e HAB He Hc).
  - intros k k' Hk. destruct (W2 k k' Hk) as (i & Hi & Hne).
    destruct (agree_differ N 1 ltac:(lia) ltac:(lia) (ztmv N A (fun i => (ws k i - shift i)%Z)) (ztmv N A (fun i => (ws k' i - shift i)%Z))) as [Hag|H]; [|exact H].
    exfalso. apply Hne.
    pose proof (ztmv_inverse N B A (fun i => (ws k i - shift i)%Z) HAB i Hi) as E1.
    pose proof (ztmv_inverse N B A (fun i => (ws k' i - shift i)%Z) HAB i Hi) as E2. cbv beta in E1, E2.
    assert (E : ztmv N B (ztmv N A (fun i => (ws k i - shift i)%Z)) i = ztmv N B (ztmv N A (fun i => (ws k' i - shift i)%Z)) i).
    { unfold ztmv at 1 3. apply eq_IZR. rewrite !zsum_IZR. apply sum_ext. intros j Hj. rewrite (Hag j) by lia. reflexivity. }
    lia.
Qed.

Lemma lambda_best N nc inv a Q : (0 < N)%nat -> (1 < nc)%nat -> lsym N Q -> lposdef N Q -> inverts N inv ->
  (forall i, (i < N)%nat -> int_range (a i)) -> within N Q a nc 1e18 ->
  exists rounds v ratio zs ds, lambda rounds N nc inv a Q = Done (v, ratio) /\
    best N Q a nc zs ds /\ (forall i, (i < N)%nat -> v i = zs O i) /\ ratio = ds O / ds 1%nat.
Proof.
  intros HN Hnc Hs Hp Hinv Hr Hw.
  set (shift := fun i => trunc (a i)). set (ah := fun i => a i - IZR (trunc (a i))).
  assert (Em : modf N a = Done (shift, ah)).
  { unfold modf. assert (F : forallb (fun i => int_range_b (a i)) (seq 0 N) = true).
    { apply forallb_forall. intros i Hi. apply in_seq in Hi. destruct (Hr i ltac:(lia)) as [H1 H2].
      unfold int_range_b. apply andb_true_intro. split; [apply Z.leb_le; exact H1|apply Z.ltb_lt; exact H2]. }
    rewrite F. reflexivity. }
  destruct (reduction_ends N Q ah Hs Hp) as (r1 & s & E1).
  pose proof (reduction_inv N Q ah r1 s Hs E1) as HI. destruct HI as [Hlow Hpos (B & HAB & HBA) Hcov Hvec].
  destruct (search_ends N nc (ra s) (rL s) (rD s) HN ltac:(lia) Hlow Hpos) as (r2 & zs & ds & E2).
  pose proof (reduction_more N Q ah r1 (Nat.max r1 r2) s ltac:(lia) E1) as E1'.
  pose proof (search_more N nc (ra s) (rL s) (rD s) r2 (Nat.max r1 r2) (zs, ds) ltac:(lia) E2) as E2'.
  (* the search finds the best vectors of the transformed problem *)
  assert (Hw' : within N (LtDL N (rL s) (rD s)) (ra s) nc 1e18).
  { destruct (within_forth N Q a (ra s) (rZ s) B nc 1e18 shift HAB HBA Hvec Hw) as (ws & W1 & W2).
    exists ws. split; [|exact W2]. intros c Hc. destruct (W1 c Hc) as (e & He & Hlt). exists e. split; [|exact Hlt].
    eapply distance_ext; [apply lmeq_sym, Hcov|intros i Hi; reflexivity|intros; reflexivity|exact He]. }
  pose proof (search_best _ N nc _ _ _ zs ds Hlow Hpos Hw' E2) as Hb.
  assert (Hb' : best N (congr N Q (zmat (rZ s))) (ra s) nc zs ds).
  { destruct Hb as (B1 & B2 & B3). split; [|split; [exact B2|]].
    - intros c Hc. eapply distance_ext; [apply Hcov|intros i Hi; reflexivity|intros; reflexivity|apply B1, Hc].
    - intros w d c Hc Hd. apply B3; [exact Hc|].
      eapply distance_ext; [apply lmeq_sym, Hcov|intros i Hi; reflexivity|intros; reflexivity|exact Hd]. }
  pose proof (best_back N Q a (ra s) (rZ s) B nc zs ds shift HAB HBA Hvec Hb') as Hbest.
  exists (Nat.max r1 r2). unfold lambda. rewrite Em. cbn [bind fst snd]. rewrite E1'. cbn [bind]. rewrite E2'. cbn [bind fst snd].
  destruct (Nat.ltb_spec nc 2); [lia|].
  eexists. eexists. exists (fun k i => (ztmv N B (zs k) i + shift i)%Z), ds.
  split; [reflexivity|]. split; [exact Hbest|]. split; [|reflexivity].
  intros i Hi. f_equal. unfold ztmv. apply eq_IZR. rewrite !zsum_IZR. apply sum_ext. intros j Hj. f_equal. f_equal.
  pose proof (Hinv (fun r c => IZR (rZ s r c)) (zmat B) HAB HBA) as Hi1.
  rewrite (inverse_unique N (zmat (rZ s)) (zmat B) _ HBA Hi1 j i Hj Hi). apply rnd_IZR.
Qed.

Lemma lambda_returns N nc inv a Q : (0 < N)%nat -> (1 < nc)%nat -> lsym N Q -> lposdef N Q ->
  (forall i, (i < N)%nat -> int_range (a i)) -> exists rounds x, lambda rounds N nc inv a Q = Done x.
Proof.
  intros Hn Hnc Hs Hp Hr. unfold lambda.
  assert (Em : modf N a = Done (fun i => trunc (a i), fun i => a i - IZR (trunc (a i)))).
  { unfold modf. assert (F : forallb (fun i => int_range_b (a i)) (seq 0 N) = true).
    { apply forallb_forall. intros i Hi. apply in_seq in Hi. destruct (Hr i ltac:(lia)) as [H1 H2].
      unfold int_range_b. apply andb_true_intro. split; [apply Z.leb_le; exact H1|apply Z.ltb_lt; exact H2]. }
    rewrite F. reflexivity. }
  rewrite Em. cbn [bind snd fst].
  destruct (reduction_ends N Q (fun i => a i - IZR (trunc (a i))) Hs Hp) as (r1 & s & E1).
  pose proof (reduction_inv N Q _ r1 s Hs E1) as HI.
  destruct (search_ends N nc (ra s) (rL s) (rD s) Hn ltac:(lia) (ri_low _ _ _ _ HI) (ri_pos _ _ _ _ HI)) as (r2 & zs & ds & E2).
  exists (Nat.max r1 r2). rewrite (reduction_more _ _ _ r1 (Nat.max r1 r2) s ltac:(lia) E1). cbn [bind].
  rewrite (search_more _ _ _ _ _ r2 (Nat.max r1 r2) _ ltac:(lia) E2). cbn [bind].
  destruct (Nat.ltb_spec nc 2); [lia|]. eexists. reflexivity.
Qed.
