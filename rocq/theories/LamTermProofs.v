(** The reduction ends, and what it leaves is reduced *)
From Coq Require Import Reals ZArith List Lra Lia Arith.
From Verif Require Import LinSpec LinProofs LamModel LamSpec LamProofs.
Import ListNotations.
Local Open Scope R_scope.

Lemma Int_part_bounds x : IZR (Int_part x) <= x < IZR (Int_part x) + 1.
Proof. destruct (base_Int_part x). lra. Qed.
Lemma rnd_near x : Rabs (x - IZR (rnd x)) <= / 2.
Proof.
  unfold rnd. destruct (Rle_dec 0 x).
  - pose proof (Int_part_bounds (x + / 2)). apply Rabs_le. lra.
  - rewrite opp_IZR. pose proof (Int_part_bounds (- x + / 2)). apply Rabs_le. lra.
Qed.

(** ** Reduced columns *)
Definition colred (N c : nat) (L : lmat) : Prop := forall i, (c < i < N)%nat -> Rabs (L i c) <= / 2.

Lemma igt_D N i j s : rD (igt N i j s) = rD s.
Proof. unfold igt. destruct (Z.eqb _ _); reflexivity. Qed.
Lemma igt_other N i j s r c : c <> j \/ (r < i)%nat -> rL (igt N i j s) r c = rL s r c.
Proof.
  intros H. unfold igt. destruct (Z.eqb _ _); [reflexivity|]. cbn [rL].
  destruct (Nat.eqb_spec c j) as [->|]; cbn [andb]; [|reflexivity].
  destruct (Nat.leb_spec i r); [lia|reflexivity].
Qed.
Lemma igt_entry N i j s : rL s i i = 1 -> Rabs (rL (igt N i j s) i j) <= / 2.
Proof.
  intros H1. unfold igt. pose proof (rnd_near (rL s i j)) as H.
  destruct (Z.eqb_spec (rnd (rL s i j)) 0) as [E|E].
  - rewrite E in H. replace (rL s i j) with (rL s i j - 0) by lra. exact H.
  - cbn [rL]. rewrite Nat.eqb_refl, Nat.leb_refl. cbn [andb]. rewrite H1, Rmult_1_r. exact H.
Qed.
Lemma igts_D N k c : forall s, rD (igts N k c s) = rD s.
Proof. induction c as [|c IH]; intros s; cbn [igts]; [reflexivity|]. rewrite IH. apply igt_D. Qed.
Lemma igts_other N k c : forall s r c', c' <> k -> rL (igts N k c s) r c' = rL s r c'.
Proof.
  induction c as [|c IH]; intros s r c' H; cbn [igts]; [reflexivity|].
  rewrite IH by exact H. apply igt_other. left. exact H.
Qed.
Lemma igts_below N k c : forall s r, (r < N - c)%nat -> rL (igts N k c s) r k = rL s r k.
Proof.
  induction c as [|c IH]; intros s r H; cbn [igts]; [reflexivity|].
  rewrite IH by lia. apply igt_other. right. lia.
Qed.
Lemma igts_col N k : forall c s, (c <= N - S k)%nat -> (forall i, (i < N)%nat -> rL s i i = 1) ->
  forall i, (N - c <= i < N)%nat -> Rabs (rL (igts N k c s) i k) <= / 2.
Proof.
  induction c as [|c IH]; intros s Hc H1 i Hi; [lia|]. cbn [igts].
  destruct (Nat.eq_dec i (N - S c)) as [->|Hne].
  - rewrite igts_below by lia. apply igt_entry. apply H1. lia.
  - apply IH; [lia| |lia]. intros r Hr. destruct (Nat.eq_dec r k) as [->|Hn].
    + rewrite igt_other by (right; lia). apply H1. exact Hr.
    + rewrite igt_other by (left; exact Hn). apply H1. exact Hr.
Qed.
Lemma igts_colred N k s : (forall i, (i < N)%nat -> rL s i i = 1) -> colred N k (rL (igts N k (N - S k) s)).
Proof. intros H1 i Hi. apply igts_col; [lia|exact H1|lia]. Qed.

Definition okat (D : lvec) (L : lmat) (p : nat) : Prop := D (S p) <= D p + L (S p) p * L (S p) p * D (S p).

Lemma pass_reduced N Q a k1 : forall k s, (k < N)%nat -> rinv N Q a s ->
  (forall c, (k1 < c \/ k <= c)%nat -> colred N c (rL s)) ->
  (forall p, (k <= p)%nat -> (S p < N)%nat -> okat (rD s) (rL s) p) ->
  match pass N k k1 s with
  | (s', None) => size_reduced N (rL s') /\ ordered N (rL s') (rD s')
  | (s', Some q) => (S q < N)%nat /\ (forall c, (q < c)%nat -> colred N c (rL s')) /\
      exists s1, rinv N Q a s1 /\ rD s1 = rD s /\
        (let delta := rD s1 q + rL s1 (S q) q * rL s1 (S q) q * rD s1 (S q) in
         delta < rD s1 (S q) /\ s' = permute q delta s1)
  end.
Proof.
  induction k as [|k IH]; intros s Hk HI Hc Ho; cbn [pass].
  - split.
    + intros i j Hij. apply (Hc j); lia.
    + intros p Hp. apply (Ho p); lia.
  - pose proof (ri_low _ _ _ _ HI) as [H1 H0].
    assert (HI1 : rinv N Q a (if Nat.leb k k1 then igts N k (N - S k) s else s)).
    { destruct (Nat.leb k k1); [|exact HI]. apply igts_inv; [exact HI|lia]. }
    assert (HD : rD (if Nat.leb k k1 then igts N k (N - S k) s else s) = rD s).
    { destruct (Nat.leb k k1); [apply igts_D|reflexivity]. }
    assert (Hoth : forall r c, c <> k -> rL (if Nat.leb k k1 then igts N k (N - S k) s else s) r c = rL s r c).
    { intros r c Hn. destruct (Nat.leb k k1); [apply igts_other; exact Hn|reflexivity]. }
    assert (Hck : colred N k (rL (if Nat.leb k k1 then igts N k (N - S k) s else s))).
    { destruct (Nat.leb_spec k k1); [apply igts_colred; exact H1|]. apply Hc. lia. }
    set (s1 := if Nat.leb k k1 then igts N k (N - S k) s else s) in *. clearbody s1. cbv zeta.
    assert (Hc1 : forall c, (k1 < c \/ k <= c)%nat -> colred N c (rL s1)).
    { intros c Hcc. destruct (Nat.eq_dec c k) as [->|Hn]; [exact Hck|].
      intros i Hi. rewrite Hoth by exact Hn. apply (Hc c); lia. }
    destruct (Rlt_dec _ _) as [Hd|Hd].
    + split; [lia|]. split.
      * intros c Hcq i Hi. unfold permute. cbn [rL].
        destruct (Nat.ltb_spec c k); [lia|]. destruct (Nat.eqb_spec c k); [lia|].
        rewrite Bool.andb_false_r. destruct (Nat.leb_spec (k + 2) i); [|lia].
        unfold tau. destruct (Nat.eqb_spec c k); [lia|].
        destruct (Nat.eqb_spec c (S k)) as [->|]; [apply (Hck i); lia|apply (Hc1 c); lia].
      * exists s1. split; [exact HI1|]. split; [exact HD|]. split; [exact Hd|reflexivity].
    + assert (IH' := IH s1 ltac:(lia) HI1 Hc1). rewrite HD in IH'. apply IH'.
      intros p Hp Hsp. destruct (Nat.eq_dec p k) as [->|Hn].
      * unfold okat. rewrite HD in Hd. lra.
      * unfold okat. rewrite !Hoth by exact Hn. apply Ho; lia.
Qed.

Lemma pass_start N Q a k1 s : (0 < N)%nat -> rinv N Q a s -> (forall c, (k1 < c)%nat -> colred N c (rL s)) ->
  match pass N (N - 1) k1 s with
  | (s', None) => size_reduced N (rL s') /\ ordered N (rL s') (rD s')
  | (s', Some q) => (S q < N)%nat /\ (forall c, (q < c)%nat -> colred N c (rL s')) /\
      exists s1, rinv N Q a s1 /\ rD s1 = rD s /\
        (let delta := rD s1 q + rL s1 (S q) q * rL s1 (S q) q * rD s1 (S q) in
         delta < rD s1 (S q) /\ s' = permute q delta s1)
  end.
Proof.
  intros HN HI Hc. apply (pass_reduced N Q a); [lia|exact HI| |intros; lia].
  intros c [H|H]; [apply Hc; exact H|]. intros i Hi. lia.
Qed.

Lemma reduce_loop_reduced N Q a rounds : forall k1 s s', (0 < N)%nat -> rinv N Q a s ->
  (forall c, (k1 < c)%nat -> colred N c (rL s)) ->
  reduce_loop rounds N k1 s = Done s' -> size_reduced N (rL s') /\ ordered N (rL s') (rD s').
Proof.
  induction rounds as [|n IH]; intros k1 s s' HN HI Hc E; cbn [reduce_loop] in E; [discriminate|].
  pose proof (pass_inv N Q a k1 (N - 1) s ltac:(lia) HI) as HP.
  pose proof (pass_start N Q a k1 s HN HI Hc) as HR.
  destruct (pass N (N - 1) k1 s) as [s1 [q|]]; cbn [fst] in HP.
  - destruct HR as (_ & Hc' & _). apply (IH q s1 s'); assumption.
  - injection E as <-. exact HR.
Qed.
Lemma reduction_reduced N Q a rounds s : lsym N Q -> reduction rounds N Q a = Done s ->
  size_reduced N (rL s) /\ ordered N (rL s) (rD s).
Proof.
  intros Hs E. destruct (Nat.eq_dec N 0) as [->|HN].
  { split; intros ? ?; [intros ?|]; lia. }
  unfold reduction, bind in E. destruct (LTDL N Q) as [| | |[L D]] eqn:EL; try discriminate.
  cbn [fst snd] in E.
  apply (reduce_loop_reduced N Q a rounds _ _ _ ltac:(lia) (rinv_init N Q a L D Hs EL)) in E; [exact E|].
  intros c Hc i Hi. lia.
Qed.

(** ** The factors are determined by the matrix *)
Lemma factor_unique N L D L' D' : unit_lower N L -> unit_lower N L' -> (forall i, (i < N)%nat -> 0 < D i) ->
  lmeq N N (LtDL N L D) (LtDL N L' D') ->
  forall m k, (N - m <= k < N)%nat -> D k = D' k /\ forall j, (j <= k)%nat -> L k j = L' k j.
Proof.
  intros [H1 H0] [H1' H0'] HD E. induction m as [|m IH]; intros k Hk; [lia|].
  destruct (Nat.eq_dec k (N - S m)) as [Hkm|Hne]; [|apply IH; lia].
  assert (G : forall j, (j <= k)%nat -> D k * L k j = D' k * L' k j).
  { intros j Hj. pose proof (E k j ltac:(lia) ltac:(lia)) as Ek. unfold LtDL in Ek.
    rewrite (sum_from N k), (sum_from N k (fun k0 => L' k0 k * D' k0 * L' k0 j)) in Ek;
      try lia; try (intros i Hi; rewrite ?H0, ?H0' by lia; lra).
    replace (N - k)%nat with (S (N - S k)) in Ek by lia. rewrite !sum_first in Ek.
    rewrite !Nat.add_0_r, (H1 k), (H1' k) in Ek by lia.
    rewrite (sum_ext (N - S k) (fun i => L (k + S i)%nat k * D (k + S i)%nat * L (k + S i)%nat j)
       (fun i => L' (k + S i)%nat k * D' (k + S i)%nat * L' (k + S i)%nat j)) in Ek.
    - lra.
    - intros i Hi. destruct (IH (k + S i)%nat ltac:(lia)) as [-> Hr]. rewrite !Hr by lia. reflexivity. }
  assert (ED : D k = D' k).
  { pose proof (G k (le_n k)) as Gk. rewrite (H1 k), (H1' k) in Gk by lia. lra. }
  split; [exact ED|]. intros j Hj. pose proof (G j Hj) as Gj. rewrite <- ED in Gj.
  pose proof (HD k ltac:(lia)). apply Rmult_eq_reg_l in Gj; [exact Gj|lra].
Qed.

(** ** Vectors of bounded form have bounded components *)
Lemma quad_factored N L D x : lquad N (LtDL N L D) x = sum N (fun k => D k * (lmv N L x k * lmv N L x k)).
Proof.
  rewrite (lquad_ext N (LtDL N L D) (fun a b => 0 + sum N (fun k => L k a * D k * L k b)) x x).
  - rewrite (quad_sum N (fun _ _ => 0)).
    rewrite (sum_zero N (fun a => sum N _)) by (intros a Ha; apply sum_zero; intros; lra). rewrite Rplus_0_l. reflexivity.
  - intros a b _ _. unfold LtDL. lra.
  - intros i _. reflexivity.
Qed.
Lemma term_le_sum n f k : (forall i, (i < n)%nat -> 0 <= f i) -> (k < n)%nat -> f k <= sum n f.
Proof.
  revert k. induction n as [|n IH]; intros k H Hk; [lia|]. cbn [sum].
  pose proof (sum_nonneg n f (fun i Hi => H i ltac:(lia))). pose proof (H n ltac:(lia)).
  destruct (Nat.eq_dec k n) as [->|Hn]; [lra|]. pose proof (IH k (fun i Hi => H i ltac:(lia)) ltac:(lia)). lra.
Qed.
Lemma abs_from_sqr x b : 0 <= b -> x * x <= b -> Rabs x <= b + 1.
Proof. intros Hb H. apply Rabs_le. split; nra. Qed.

Lemma bounded_form N L D T : unit_lower N L -> (forall i, (i < N)%nat -> 0 < D i) -> 0 <= T ->
  exists B, 0 <= B /\ forall x, lquad N (LtDL N L D) x <= T -> forall i, (i < N)%nat -> Rabs (x i) <= B.
Proof.
  intros [H1 H0] HD HT.
  assert (G : forall m, (m <= N)%nat -> exists B, 0 <= B /\
     forall x, lquad N (LtDL N L D) x <= T -> forall i, (i < m)%nat -> Rabs (x i) <= B).
  { induction m as [|m IH]; intros Hm.
    - exists 0. split; [lra|]. intros; lia.
    - destruct (IH ltac:(lia)) as (B & HB & Hx).
      set (S0 := sum m (fun c => Rabs (L m c))).
      assert (HS : 0 <= S0) by (apply sum_nonneg; intros; apply Rabs_pos).
      assert (HTD : 0 <= T / D m).
      { apply Rmult_le_pos; [exact HT|]. left. apply Rinv_0_lt_compat, HD. lia. }
      exists (B + (T / D m + 1) + B * S0).
      assert (HBS : 0 <= B * S0) by (apply Rmult_le_pos; assumption).
      split; [lra|].
      intros x Hq i Hi. destruct (Nat.eq_dec i m) as [->|Hn]; [|pose proof (Hx x Hq i ltac:(lia)); lra].
      assert (Hr : Rabs (lmv N L x m) <= T / D m + 1).
      { apply abs_from_sqr; [exact HTD|].
        rewrite quad_factored in Hq.
        assert (Hterm : D m * (lmv N L x m * lmv N L x m) <= T).
        { eapply Rle_trans; [|exact Hq].
          apply (term_le_sum N (fun k => D k * (lmv N L x k * lmv N L x k)) m); [|lia].
          intros k Hk. apply Rmult_le_pos; [left; apply HD, Hk|apply Rle_0_sqr]. }
        pose proof (HD m ltac:(lia)) as HDm.
        apply (Rmult_le_reg_l (D m)); [exact HDm|]. replace (D m * (T / D m)) with T by (field; lra). exact Hterm. }
      assert (E : lmv N L x m = sum m (fun c => L m c * x c) + x m).
      { unfold lmv. rewrite (sum_cut N (S m)) by (try lia; intros c Hc; rewrite H0 by lia; lra).
        cbn [sum]. rewrite H1 by lia. lra. }
      assert (Hs : Rabs (sum m (fun c => L m c * x c)) <= B * S0).
      { assert (K : forall j, (j <= m)%nat -> Rabs (sum j (fun c => L m c * x c)) <= B * sum j (fun c => Rabs (L m c))).
        { induction j as [|j IHj]; intros Hj; cbn [sum]; [rewrite Rabs_R0; lra|].
          eapply Rle_trans; [apply Rabs_triang|]. rewrite Rmult_plus_distr_l. apply Rplus_le_compat; [apply IHj; lia|].
          rewrite Rabs_mult, Rmult_comm. apply Rmult_le_compat_r; [apply Rabs_pos|]. apply Hx; [exact Hq|lia]. }
        apply K. lia. }
      replace (x m) with (lmv N L x m - sum m (fun c => L m c * x c)) by lra.
      unfold Rminus. eapply Rle_trans; [apply Rabs_triang|]. rewrite Rabs_Ropp. lra. }
  apply (G N). lia.
Qed.

(** ** Finitely many integer matrices *)
Fixpoint all_lists (l : list Z) (n : nat) : list (list Z) :=
  match n with O => [[]] | S m => flat_map (fun z => map (cons z) (all_lists l m)) l end.
Lemma in_all_lists l n : forall x, length x = n -> (forall z, In z x -> In z l) -> In x (all_lists l n).
Proof.
  induction n as [|n IH]; intros x Hl Hx.
  - destruct x; [left; reflexivity|discriminate].
  - destruct x as [|z x]; [discriminate|]. cbn [all_lists]. apply in_flat_map. exists z.
    split; [apply Hx; left; reflexivity|]. apply in_map. apply IH; [injection Hl; auto|].
    intros y Hy. apply Hx. right. exact Hy.
Qed.
Definition zrange (b : Z) : list Z := map (fun i => (Z.of_nat i - b)%Z) (seq 0 (Z.to_nat (2 * b + 1))).
Lemma in_zrange b z : (- b <= z <= b)%Z -> In z (zrange b).
Proof.
  intros H. unfold zrange. apply in_map_iff. exists (Z.to_nat (z + b)). split; [lia|].
  apply in_seq. lia.
Qed.
Definition flat (N : nat) (A : nat -> nat -> Z) : list Z :=
  map (fun i => A (i / N)%nat (i mod N)%nat) (seq 0 (N * N)).
Lemma flat_inj N A B : flat N A = flat N B -> forall i j, (i < N)%nat -> (j < N)%nat -> A i j = B i j.
Proof.
  intros E i j Hi Hj. unfold flat in E.
  assert (Hlt : (i * N + j < N * N)%nat) by nia.
  assert (K : nth_error (map (fun p => A (p / N)%nat (p mod N)%nat) (seq 0 (N * N))) (i * N + j) =
              nth_error (map (fun p => B (p / N)%nat (p mod N)%nat) (seq 0 (N * N))) (i * N + j)) by (rewrite E; reflexivity).
  rewrite !nth_error_map in K.
  assert (S0 : nth_error (seq 0 (N * N)) (i * N + j) = Some (i * N + j)%nat).
  { rewrite (nth_error_nth' _ O) by (rewrite seq_length; exact Hlt). rewrite seq_nth by exact Hlt. reflexivity. }
  rewrite S0 in K. cbn [option_map] in K. injection K as K.
  replace ((i * N + j) / N)%nat with i in K by (rewrite Nat.div_add_l by lia; rewrite Nat.div_small by lia; lia).
  replace ((i * N + j) mod N)%nat with j in K
    by (rewrite Nat.add_comm, Nat.mod_add by lia; rewrite Nat.mod_small by lia; reflexivity).
  exact K.
Qed.
Lemma flat_in N A b : (forall i j, (i < N)%nat -> (j < N)%nat -> (- b <= A i j <= b)%Z) ->
  In (flat N A) (all_lists (zrange b) (N * N)).
Proof.
  intros H. apply in_all_lists.
  - unfold flat. rewrite map_length, seq_length. reflexivity.
  - intros z Hz. unfold flat in Hz. apply in_map_iff in Hz. destruct Hz as (p & <- & Hp). apply in_seq in Hp.
    apply in_zrange, H.
    + apply Nat.div_lt_upper_bound; lia.
    + apply Nat.mod_upper_bound. lia.
Qed.

(** ** A state with all its columns reduced *)
Fixpoint tidy (N m : nat) (s : red) : red := match m with O => s | S k => tidy N k (igts N k (N - S k) s) end.
Lemma tidy_inv N Q a : forall m s, (m <= N)%nat -> rinv N Q a s -> rinv N Q a (tidy N m s).
Proof.
  induction m as [|k IH]; intros s Hm HI; cbn [tidy]; [exact HI|]. apply IH; [lia|]. apply igts_inv; [exact HI|lia].
Qed.
Lemma tidy_D N : forall m s, rD (tidy N m s) = rD s.
Proof. induction m as [|k IH]; intros s; cbn [tidy]; [reflexivity|]. rewrite IH. apply igts_D. Qed.
Lemma tidy_other N : forall m s r c, (m <= c)%nat -> rL (tidy N m s) r c = rL s r c.
Proof.
  induction m as [|k IH]; intros s r c Hc; cbn [tidy]; [reflexivity|].
  rewrite IH by lia. apply igts_other. lia.
Qed.
Lemma tidy_reduced N Q a : forall m s, (m <= N)%nat -> rinv N Q a s ->
  forall c, (c < m)%nat -> colred N c (rL (tidy N m s)).
Proof.
  induction m as [|k IH]; intros s Hm HI c Hc; [lia|]. cbn [tidy].
  pose proof (ri_low _ _ _ _ HI) as [H1 _].
  assert (HI' : rinv N Q a (igts N k (N - S k) s)) by (apply igts_inv; [exact HI|lia]).
  destruct (Nat.eq_dec c k) as [->|Hn].
  - intros i Hi. rewrite tidy_other by lia. apply igts_colred; assumption.
  - apply IH; [lia|exact HI'|lia].
Qed.

(** ** What decreases *)
Definition total (N : nat) (D : lvec) : R := sum N D.
Definition weight (N : nat) (D : lvec) : R := sum N (fun i => INR i * D i).

Lemma sum_two_lt n f g k : (S k < n)%nat ->
  (forall i, (i < n)%nat -> i <> k -> i <> S k -> f i = g i) ->
  sum n f = sum n g + (f k + f (S k) - g k - g (S k)).
Proof.
  intros Hk H.
  assert (E : sum n (fun i => f i - g i) = f k + f (S k) - g k - g (S k)).
  { replace n with (k + (2 + (n - k - 2)))%nat by lia.
    rewrite sum_split, (sum_split 2).
    rewrite (sum_zero k) by (intros i Hi; rewrite (H i) by lia; lra).
    rewrite (sum_zero (n - k - 2)) by (intros i Hi; rewrite (H (k + (2 + i))%nat) by lia; lra).
    cbn [sum]. replace (k + 0)%nat with k by lia. replace (k + 1)%nat with (S k) by lia. lra. }
  rewrite sum_minus in E. lra.
Qed.
Lemma pair_sum d e del : 0 < d -> d <= del -> del < e -> d / del * e + del <= d + e.
Proof.
  intros Hd H1 H2.
  assert (E : d / del * e + del - (d + e) = - ((del - d) * (e - del) / del)) by (field; lra).
  assert (0 <= (del - d) * (e - del) / del).
  { apply Rmult_le_pos; [apply Rmult_le_pos; lra|]. left. apply Rinv_0_lt_compat. lra. }
  lra.
Qed.
Lemma permute_decreases N Q a q s : rinv N Q a s -> (S q < N)%nat ->
  let delta := rD s q + rL s (S q) q * rL s (S q) q * rD s (S q) in
  delta < rD s (S q) ->
  total N (rD (permute q delta s)) <= total N (rD s) /\ weight N (rD (permute q delta s)) < weight N (rD s).
Proof.
  intros HI Hq delta Hd. pose proof (ri_pos _ _ _ _ HI) as HP.
  assert (Hdk := HP q ltac:(lia)). assert (Hdk1 := HP (S q) ltac:(lia)).
  assert (Hdel : rD s q <= delta).
  { unfold delta. pose proof (Rle_0_sqr (rL s (S q) q)) as Hs. unfold Rsqr in Hs.
    pose proof (Rmult_le_pos _ _ Hs (Rlt_le _ _ Hdk1)). lra. }
  clearbody delta. destruct (permute_D q delta s) as (D1 & D2 & D3).
  pose proof (pair_sum (rD s q) (rD s (S q)) delta Hdk Hdel Hd) as Hsum.
  unfold total, weight. split.
  - rewrite (sum_two_lt N (rD (permute q delta s)) (rD s) q Hq) by (intros; apply D3; assumption).
    rewrite D1, D2. lra.
  - rewrite (sum_two_lt N (fun i => INR i * rD (permute q delta s) i) (fun i => INR i * rD s i) q Hq)
      by (intros; rewrite D3 by assumption; reflexivity).
    rewrite D1, D2, S_INR. pose proof (pos_INR q) as Hi.
    assert (INR q * (rD s q / delta * rD s (S q) + delta) <= INR q * (rD s q + rD s (S q)))
      by (apply Rmult_le_compat_l; assumption).
    lra.
Qed.

(** The reduced matrix Z of a state is one of finitely many, and determines D *)
Definition zkey (N : nat) (s : red) : list Z := flat N (rZ (tidy N N s)).

Lemma zkey_bounded N Q L D a T : unit_lower N L -> (forall i, (i < N)%nat -> 0 < D i) -> lmeq N N (LtDL N L D) Q -> 0 <= T ->
  exists F, forall s, rinv N Q a s -> total N (rD s) <= T -> In (zkey N s) F.
Proof.
  intros HL HD HQ HT. destruct (bounded_form N L D T HL HD HT) as (B & HB & Hx).
  exists (all_lists (zrange (up B)) (N * N)). intros s HI Ht. unfold zkey. apply flat_in.
  pose proof (tidy_inv N Q a N s (le_n N) HI) as HI'.
  assert (Hred : forall i j, (j < i < N)%nat -> Rabs (rL (tidy N N s) i j) <= / 2).
  { intros i j Hij. apply (tidy_reduced N Q a N s (le_n N) HI j); lia. }
  rewrite <- (tidy_D N N s) in Ht. set (t := tidy N N s) in *. clearbody t.
  intros i j Hi Hj.
  assert (Hb : Rabs (IZR (rZ t i j)) <= B).
  { apply (Hx (fun r => IZR (rZ t r j))); [|exact Hi].
    assert (E : lquad N (LtDL N L D) (fun r => IZR (rZ t r j)) = congr N Q (zmat (rZ t)) j j).
    { rewrite (lquad_ext N _ Q _ (fun r => IZR (rZ t r j))) by (assumption || (intros r _; reflexivity)).
      unfold lquad, congr, ldot, lmm, ltr, lmv, zmat. reflexivity. }
    rewrite E, <- (ri_cov _ _ _ _ HI' j j Hj Hj). eapply Rle_trans; [|exact Ht].
    unfold LtDL, total. apply sum_le. intros k Hk.
    pose proof (ri_pos _ _ _ _ HI' k Hk) as Hp. destruct (ri_low _ _ _ _ HI') as [H1 H0].
    assert (Ha : Rabs (rL t k j) <= 1).
    { destruct (Nat.lt_trichotomy k j) as [H|[->|H]].
      - rewrite H0 by lia. rewrite Rabs_R0. lra.
      - rewrite H1 by exact Hj. rewrite Rabs_R1. lra.
      - pose proof (Hred k j ltac:(lia)). lra. }
    assert (Hsq : rL t k j * rL t k j <= 1).
    { pose proof (Rabs_pos (rL t k j)) as Hr. replace (rL t k j * rL t k j) with (Rabs (rL t k j) * Rabs (rL t k j)).
      - pose proof (Rmult_le_compat _ _ _ _ Hr Hr Ha Ha). lra.
      - rewrite <- Rabs_mult. apply Rabs_right. apply Rle_ge, Rle_0_sqr. }
    replace (rL t k j * rD t k * rL t k j) with (rD t k * (rL t k j * rL t k j)) by lra.
    pose proof (Rmult_le_compat_l _ _ _ (Rlt_le _ _ Hp) Hsq). lra. }
  destruct (archimed B) as [Hup _].
  assert (Hlow : - IZR (up B) <= IZR (rZ t i j) <= IZR (up B)).
  { pose proof (Rle_abs (IZR (rZ t i j))) as H1. pose proof (Rle_abs (- IZR (rZ t i j))) as H2.
    rewrite Rabs_Ropp in H2. lra. }
  rewrite <- opp_IZR in Hlow. destruct Hlow as [Hl Hu]. apply le_IZR in Hl, Hu. lia.
Qed.
Lemma zkey_D N Q a s t : rinv N Q a s -> rinv N Q a t -> zkey N s = zkey N t -> leq N (rD s) (rD t).
Proof.
  intros Hs Ht E i Hi. unfold zkey in E. pose proof (flat_inj N _ _ E) as EZ.
  pose proof (tidy_inv N Q a N s (le_n N) Hs) as Hs'. pose proof (tidy_inv N Q a N t (le_n N) Ht) as Ht'.
  rewrite <- (tidy_D N N s), <- (tidy_D N N t).
  apply (factor_unique N (rL (tidy N N s)) (rD (tidy N N s)) (rL (tidy N N t)) (rD (tidy N N t))
    (ri_low _ _ _ _ Hs') (ri_low _ _ _ _ Ht') (ri_pos _ _ _ _ Hs')) with (m := N); [|lia].
  eapply lmeq_trans; [apply (ri_cov _ _ _ _ Hs')|]. apply lmeq_sym.
  eapply lmeq_trans; [apply (ri_cov _ _ _ _ Ht')|].
  apply congr_ext; [apply lmeq_refl|]. intros p q Hp Hq. unfold zmat. rewrite EZ by assumption. reflexivity.
Qed.

Lemma reduce_loop_going N Q a F T : (0 < N)%nat ->
  (forall s, rinv N Q a s -> total N (rD s) <= T -> In (zkey N s) F) ->
  forall n k1 s, rinv N Q a s -> total N (rD s) <= T -> (forall c, (k1 < c)%nat -> colred N c (rL s)) ->
  reduce_loop n N k1 s = Going ->
  exists l, length l = n /\ NoDup l /\ incl l F /\
    forall x, In x l -> exists t, rinv N Q a t /\ zkey N t = x /\ weight N (rD t) <= weight N (rD s).
Proof.
  intros HN HF. induction n as [|n IH]; intros k1 s HI HT Hc E.
  - exists []. split; [reflexivity|]. split; [constructor|]. split; [intros x Hx; contradiction|]. intros x Hx. contradiction.
  - cbn [reduce_loop] in E.
    pose proof (pass_inv N Q a k1 (N - 1) s ltac:(lia) HI) as HP.
    pose proof (pass_start N Q a k1 s HN HI Hc) as HR.
    destruct (pass N (N - 1) k1 s) as [s' [q|]]; cbn [fst] in HP; [|discriminate].
    destruct HR as (Hq & Hc' & s1 & HI1 & HD1 & Hd & ->). cbv zeta in Hd, HP, Hc', E.
    destruct (permute_decreases N Q a q s1 HI1 Hq Hd) as [Ht Hw]. rewrite HD1 in Ht, Hw.
    rewrite HD1 in *.
    match type of E with reduce_loop _ _ _ ?s2 = _ => set (s2' := s2) in * end. clearbody s2'.
    destruct (IH q s2' HP ltac:(lra) Hc' E) as (l & Hl & Hnd & Hi & Hall).
    exists (zkey N s :: l). split; [cbn [length]; lia|]. split.
    + constructor; [|exact Hnd]. intros Hin. destruct (Hall _ Hin) as (t & HIt & Hk & Hwt).
      assert (Ew : weight N (rD t) = weight N (rD s)).
      { apply sum_ext. intros i Hii. rewrite (zkey_D N Q a t s HIt HI Hk i Hii). reflexivity. }
      lra.
    + split.
      * intros x [<-|Hx]; [apply HF; assumption|apply Hi, Hx].
      * intros x [<-|Hx].
        -- exists s. split; [exact HI|]. split; [reflexivity|lra].
        -- destruct (Hall x Hx) as (t & HIt & Hk & Hwt). exists t. split; [exact HIt|]. split; [exact Hk|lra].
Qed.

Lemma reduce_loop_outcome N rounds : forall k1 s, reduce_loop rounds N k1 s = Going \/ exists s', reduce_loop rounds N k1 s = Done s'.
Proof.
  induction rounds as [|n IH]; intros k1 s; cbn [reduce_loop]; [left; reflexivity|].
  destruct (pass N (N - 1) k1 s) as [s' [q|]]; [apply IH|right; exists s'; reflexivity].
Qed.

Lemma reduction_ends N Q a : lsym N Q -> lposdef N Q -> exists rounds s, reduction rounds N Q a = Done s.
Proof.
  intros Hs Hp. destruct (LTDL_posdef N Q Hs Hp) as (L & D & EL).
  destruct (Nat.eq_dec N 0) as [->|HN].
  { exists 1%nat. unfold reduction, bind. rewrite EL. cbn [fst snd reduce_loop Nat.sub pass]. eexists. reflexivity. }
  destruct (LTDL_factors N Q L D Hs EL) as (Hl & Hd & Hq).
  assert (HT : 0 <= total N D) by (apply sum_nonneg; intros i Hi; left; apply Hd, Hi).
  destruct (zkey_bounded N Q L D a (total N D) Hl Hd Hq HT) as (F & HF).
  exists (S (length F)). unfold reduction, bind. rewrite EL. cbn [fst snd].
  destruct (reduce_loop_outcome N (S (length F)) (N - 2)
     (Red L D a (fun r c => if Nat.eqb r c then 1%Z else 0%Z))) as [E|[s E]]; [|exists s; exact E].
  exfalso.
  apply (reduce_loop_going N Q a F (total N D)) in E.
  - destruct E as (l & Hlen & Hnd & Hi & _). pose proof (NoDup_incl_length Hnd Hi). lia.
  - lia.
  - exact HF.
  - apply rinv_init; assumption.
  - cbn [rD]. lra.
  - intros c Hc i Hi. lia.
Qed.
(** More rounds do not change the result *)
Lemma reduce_loop_more N : forall n m k1 s s', (n <= m)%nat -> reduce_loop n N k1 s = Done s' -> reduce_loop m N k1 s = Done s'.
Proof.
  induction n as [|n IH]; intros m k1 s s' Hm E; [discriminate|].
  destruct m as [|m]; [lia|]. cbn [reduce_loop] in E |- *.
  destruct (pass N (N - 1) k1 s) as [t [q|]]; [|exact E]. apply (IH m); [lia|exact E].
Qed.
Lemma reduction_more N Q a n m s : (n <= m)%nat -> reduction n N Q a = Done s -> reduction m N Q a = Done s.
Proof.
  intros Hm E. unfold reduction, bind in *. destruct (LTDL N Q) as [| | |ld]; try discriminate.
  apply (reduce_loop_more N n); assumption.
Qed.
