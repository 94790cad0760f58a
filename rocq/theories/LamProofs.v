(** The factorisation and the reduction *)
From Coq Require Import Reals ZArith List Lra Lia Arith.
From Verif Require Import LinSpec LinProofs LamModel LamSpec.
Local Open Scope R_scope.

Lemma sum_two n f g k : (S k < n)%nat ->
  (forall i, (i < n)%nat -> i <> k -> i <> S k -> f i = g i) ->
  f k + f (S k) = g k + g (S k) -> sum n f = sum n g.
Proof.
  intros Hk H E.
  assert (H0 : sum n (fun i => f i - g i) = 0).
  { replace n with (k + (2 + (n - k - 2)))%nat by lia.
    rewrite sum_split, (sum_split 2).
    rewrite (sum_zero k) by (intros i Hi; rewrite (H i) by lia; lra).
    rewrite (sum_zero (n - k - 2)) by (intros i Hi; rewrite (H (k + (2 + i))%nat) by lia; lra).
    cbn [sum]. replace (k + 0)%nat with k by lia. replace (k + 1)%nat with (S k) by lia. lra. }
  rewrite sum_minus in H0. lra.
Qed.

(** ** LTDL *)
Definition part (N m : nat) (L : lmat) (D : lvec) (a b : nat) : R :=
  sum N (fun k => if Nat.ltb k m then 0 else L k a * D k * L k b).
Record linv (N : nat) (Q0 : lmat) (m : nat) (W L : lmat) (D : lvec) : Prop := LInv {
  li_q : forall a b, (b <= a < N)%nat -> Q0 a b = (if Nat.ltb a m then W a b else 0) + part N m L D a b;
  li_1 : forall k, (m <= k < N)%nat -> L k k = 1;
  li_d : forall k, (m <= k < N)%nat -> 0 < D k;
  li_0 : forall i j, (i < j)%nat -> L i j = 0 }.

Lemma div_div_sqrt x p : 0 < p -> x / sqrt p / (p / sqrt p) = x / p.
Proof. intros Hp. pose proof (sqrt_lt_R0 p Hp). field. split; lra. Qed.
Lemma mul_div_sqrt x y p : 0 < p -> x / sqrt p * (y / sqrt p) = x * y / p.
Proof.
  intros Hp. pose proof (sqrt_lt_R0 p Hp). pose proof (sqrt_sqrt p ltac:(lra)) as E.
  replace (x / sqrt p * (y / sqrt p)) with (x * y / (sqrt p * sqrt p)) by (field; lra).
  rewrite E. reflexivity.
Qed.

Lemma part_more N i L D L' D' a b : (i < N)%nat ->
  (forall k c, k <> i -> L' k c = L k c) -> (forall k, k <> i -> D' k = D k) ->
  part N i L' D' a b = part N (S i) L D a b + L' i a * D' i * L' i b.
Proof.
  intros Hi HL HD. unfold part.
  enough (E : sum N (fun k => (if Nat.ltb k i then 0 else L' k a * D' k * L' k b) -
                          (if Nat.ltb k (S i) then 0 else L k a * D k * L k b)) = L' i a * D' i * L' i b)
    by (rewrite sum_minus in E; lra).
  rewrite (sum_one N _ i Hi).
  - destruct (Nat.ltb_spec i i) as [?|_]; [lia|]. destruct (Nat.ltb_spec i (S i)) as [_|?]; [lra|lia].
  - intros k Hk Hne. rewrite !HL, HD by assumption.
    destruct (Nat.ltb_spec k i), (Nat.ltb_spec k (S i)); try lia; lra.
Qed.

Lemma ltdl_step N Q0 i W L D : linv N Q0 (S i) W L D -> (i < N)%nat -> 0 < W i i ->
  let L1 : lmat := fun r c => if Nat.eqb r i then if Nat.leb c i then W i c / sqrt (W i i) else L r c else L r c in
  let Q1 : lmat := fun r c => if Nat.ltb r i then if Nat.leb c r then W r c - L1 i c * L1 i r else W r c else W r c in
  let L2 : lmat := fun r c => if Nat.eqb r i then if Nat.leb c i then L1 i c / L1 i i else L1 r c else L1 r c in
  linv N Q0 i Q1 L2 (set1 D i (W i i)).
Proof.
  intros [Hq H1 Hd H0] Hi Hp L1 Q1 L2.
  assert (L1i : forall c, (c <= i)%nat -> L1 i c = W i c / sqrt (W i i)).
  { intros c Hc. unfold L1. rewrite Nat.eqb_refl. destruct (Nat.leb_spec c i); [reflexivity|lia]. }
  assert (L2i : forall c, (c <= i)%nat -> L2 i c = W i c / W i i).
  { intros c Hc. unfold L2. rewrite Nat.eqb_refl. destruct (Nat.leb_spec c i); [|lia].
    rewrite !L1i by lia. apply div_div_sqrt. exact Hp. }
  assert (L2o : forall k c, k <> i -> L2 k c = L k c).
  { intros k c Hk. unfold L2, L1. apply Nat.eqb_neq in Hk. rewrite Hk. reflexivity. }
  assert (L2z : forall c, (i < c)%nat -> L2 i c = 0).
  { intros c Hc. unfold L2, L1. rewrite Nat.eqb_refl. destruct (Nat.leb_spec c i); [lia|]. apply H0. exact Hc. }
  assert (Do : forall k, k <> i -> set1 D i (W i i) k = D k).
  { intros k Hk. unfold set1. apply Nat.eqb_neq in Hk. rewrite Hk. reflexivity. }
  assert (Di : set1 D i (W i i) i = W i i) by (unfold set1; rewrite Nat.eqb_refl; reflexivity).
  split.
  - intros a b Hab. rewrite (Hq a b Hab).
    rewrite (part_more N i L D L2 _ a b Hi L2o Do), Di.
    destruct (Nat.lt_trichotomy a i) as [Ha|[->|Ha]].
    + destruct (Nat.ltb_spec a (S i)) as [_|?]; [|lia]. destruct (Nat.ltb_spec a i) as [_|?]; [|lia].
      rewrite !L2i by lia. unfold Q1.
      destruct (Nat.ltb_spec a i) as [_|?]; [|lia]. destruct (Nat.leb_spec b a) as [_|?]; [|lia].
      rewrite !L1i by lia. rewrite mul_div_sqrt by exact Hp. field. lra.
    + destruct (Nat.ltb_spec i (S i)) as [_|?]; [|lia]. destruct (Nat.ltb_spec i i) as [?|_]; [lia|].
      rewrite !L2i by lia. field. lra.
    + destruct (Nat.ltb_spec a (S i)) as [?|_]; [lia|]. destruct (Nat.ltb_spec a i) as [?|_]; [lia|].
      rewrite (L2z a Ha). lra.
  - intros k Hk. destruct (Nat.eq_dec k i) as [->|Hne].
    + rewrite L2i by lia. field. lra.
    + rewrite L2o by exact Hne. apply H1. lia.
  - intros k Hk. destruct (Nat.eq_dec k i) as [->|Hne]; [rewrite Di; exact Hp|].
    rewrite Do by exact Hne. apply Hd. lia.
  - intros k c Hkc. destruct (Nat.eq_dec k i) as [->|Hne]; [apply L2z; exact Hkc|].
    rewrite L2o by exact Hne. apply H0. exact Hkc.
Qed.

Lemma ltdl_loop_inv N Q0 m : forall W L D, (m <= N)%nat -> linv N Q0 m W L D ->
  match ltdl_loop m W L D with
  | Done (L', D') => exists W', linv N Q0 0 W' L' D'
  | Exit => exists i W' L' D', (i < m)%nat /\ linv N Q0 (S i) W' L' D' /\ W' i i <= 0
  | _ => False
  end.
Proof.
  induction m as [|i IH]; intros W L D Hm HI; cbn [ltdl_loop].
  - exists W. exact HI.
  - destruct (Rlt_dec 0 (W i i)) as [Hp|Hp].
    + pose proof (ltdl_step N Q0 i W L D HI ltac:(lia) Hp) as HI'. cbv zeta in HI' |- *.
      specialize (IH _ _ _ ltac:(lia) HI').
      destruct (ltdl_loop i _ _ _) as [| | |[L' D']]; try contradiction.
      * destruct IH as (i' & W' & L' & D' & Hi' & IH). exists i', W', L', D'. split; [lia|exact IH].
      * exact IH.
    + exists i, W, L, D. split; [lia|]. split; [exact HI|lra].
Qed.

Lemma linv_init N Q : linv N Q N Q (fun _ _ => 0) (fun _ => 0).
Proof.
  split; try (intros; lia).
  - intros a b Hab. destruct (Nat.ltb_spec a N) as [_|?]; [|lia]. unfold part.
    rewrite sum_zero; [lra|]. intros k Hk. destruct (Nat.ltb_spec k N); lra.
  - reflexivity.
Qed.

Lemma part_0 N L D a b : part N 0 L D a b = LtDL N L D a b.
Proof. reflexivity. Qed.
Lemma part_sym N m L D a b : part N m L D a b = part N m L D b a.
Proof. apply sum_ext. intros k _. destruct (Nat.ltb k m); lra. Qed.
Lemma LtDL_sym N L D a b : LtDL N L D a b = LtDL N L D b a.
Proof. apply sum_ext. intros; lra. Qed.

Lemma LTDL_factors N Q L D : lsym N Q -> LTDL N Q = Done (L, D) ->
  unit_lower N L /\ (forall i, (i < N)%nat -> 0 < D i) /\ lmeq N N (LtDL N L D) Q.
Proof.
  intros Hs E. unfold LTDL in E.
  pose proof (ltdl_loop_inv N Q N Q (fun _ _ => 0) (fun _ => 0) (le_n N) (linv_init N Q)) as H.
  rewrite E in H. destruct H as [W' [Hq H1 Hd H0]].
  split; [split|split].
  - intros i Hi. apply H1. lia.
  - intros i j Hij. apply H0. lia.
  - intros i Hi. apply Hd. lia.
  - intros i j Hi Hj. destruct (Nat.le_ge_cases j i) as [Hji|Hji].
    + rewrite (Hq i j ltac:(lia)). destruct (Nat.ltb_spec i 0); [lia|]. rewrite part_0. lra.
    + rewrite (Hs i j Hi Hj), (Hq j i ltac:(lia)). destruct (Nat.ltb_spec j 0); [lia|].
      rewrite part_0, LtDL_sym. lra.
Qed.

(** Forward substitution *)
Lemma substitute (L : lmat) (x0 : lvec) m : forall n,
  exists x : lvec, (forall j, (j < m)%nat -> x j = x0 j) /\
    (forall k, (m <= k < m + n)%nat -> x k = - sum k (fun c => L k c * x c)).
Proof.
  induction n as [|n [x [Hx Hk]]].
  - exists x0. split; [reflexivity|]. intros; lia.
  - exists (set1 x (m + n) (- sum (m + n) (fun c => L (m + n)%nat c * x c))).
    unfold set1. split.
    + intros j Hj. destruct (Nat.eqb_spec j (m + n)); [lia|]. apply Hx. exact Hj.
    + intros k Hkk.
      assert (E : forall k', (k' <= m + n)%nat ->
        sum k' (fun c => L k c * (if Nat.eqb c (m + n) then - sum (m + n) (fun c0 => L (m + n)%nat c0 * x c0) else x c)) =
        sum k' (fun c => L k c * x c)).
      { intros k' Hk'. apply sum_ext. intros c Hc. destruct (Nat.eqb_spec c (m + n)); [lia|reflexivity]. }
      rewrite E by lia. destruct (Nat.eqb_spec k (m + n)) as [->|Hne]; [reflexivity|].
      apply Hk. lia.
Qed.

Lemma quad_sum N (w : lmat) (g : lmat) (d x : lvec) :
  lquad N (fun a b => w a b + sum N (fun k => g k a * d k * g k b)) x =
  sum N (fun a => sum N (fun b => x a * (w a b * x b))) +
  sum N (fun k => d k * (sum N (fun a => g k a * x a) * sum N (fun a => g k a * x a))).
Proof.
  unfold lquad, ldot, lmv.
  rewrite (sum_ext N _ (fun a => sum N (fun b => x a * (w a b * x b)) +
     sum N (fun k => d k * (g k a * x a * sum N (fun b => g k b * x b))))).
  - rewrite sum_plus. f_equal. rewrite sum_swap. apply sum_ext. intros k Hk.
    rewrite sum_scal. f_equal. rewrite sum_scalr. reflexivity.
  - intros a Ha. rewrite <- sum_scal.
    rewrite (sum_ext N _ (fun b => x a * (w a b * x b) + sum N (fun k => d k * (g k a * x a * (g k b * x b))))).
    + rewrite sum_plus. f_equal. rewrite sum_swap. apply sum_ext. intros k Hk.
      rewrite sum_scal. f_equal. rewrite sum_scal. reflexivity.
    + intros b Hb. rewrite Rmult_plus_distr_r, Rmult_plus_distr_l. f_equal.
      rewrite <- sum_scalr, <- sum_scal. apply sum_ext. intros; lra.
Qed.

(** A pivot is a value of the form *)
Lemma pivot_value N Q0 i W L D : lsym N Q0 -> linv N Q0 (S i) W L D -> (i < N)%nat ->
  exists x, x i = 1 /\ lquad N Q0 x = W i i.
Proof.
  intros Hs [Hq H1 Hd H0] Hi.
  destruct (substitute L (fun j => if Nat.eqb j i then 1 else 0) (S i) (N - S i)) as [x [Hx Hk]].
  assert (Xi : x i = 1) by (rewrite Hx by lia; rewrite Nat.eqb_refl; reflexivity).
  assert (Xl : forall j, (j < i)%nat -> x j = 0).
  { intros j Hj. rewrite Hx by lia. destruct (Nat.eqb_spec j i); [lia|reflexivity]. }
  exists x. split; [exact Xi|].
  set (w := fun a b => if Nat.ltb (Nat.max a b) (S i) then W (Nat.max a b) (Nat.min a b) else 0).
  set (g := fun k a => if Nat.ltb k (S i) then 0 else L k a).
  assert (Ex : leq N x x) by (intros j Hj; reflexivity).
  assert (Eq : lmeq N N Q0 (fun a b => w a b + sum N (fun k => g k a * D k * g k b))).
  { intros a b Ha Hb.
    assert (P : sum N (fun k => g k a * D k * g k b) = part N (S i) L D a b).
    { apply sum_ext. intros k Hkk. unfold g. destruct (Nat.ltb k (S i)); lra. }
    rewrite P. unfold w. destruct (Nat.le_ge_cases b a) as [Hba|Hba].
    - rewrite Nat.max_l, Nat.min_r by lia. apply Hq. lia.
    - rewrite Nat.max_r, Nat.min_l by lia. rewrite (Hs a b Ha Hb), part_sym. apply Hq. lia. }
  rewrite (lquad_ext N Q0 _ x x Eq Ex).
  rewrite quad_sum. rewrite (sum_zero N (fun k => D k * _)).
  - rewrite (sum_one N _ i Hi).
    + rewrite (sum_one N _ i Hi).
      * unfold w. rewrite Nat.max_id, Nat.min_id, Xi.
        destruct (Nat.ltb_spec i (S i)) as [_|?]; [lra|lia].
      * intros b Hb Hne. destruct (Nat.lt_ge_cases b i) as [Hlt|Hge]; [rewrite (Xl b Hlt); lra|].
        unfold w. rewrite Nat.max_r by lia. destruct (Nat.ltb_spec b (S i)); [lia|lra].
    + intros a Ha Hne. apply sum_zero. intros b Hb.
      destruct (Nat.lt_ge_cases a i) as [Hlt|Hge]; [rewrite (Xl a Hlt); lra|].
      unfold w. destruct (Nat.ltb_spec (Nat.max a b) (S i)); [lia|lra].
  - intros k Hkk. unfold g. destruct (Nat.ltb_spec k (S i)) as [Hlt|Hge].
    + rewrite (sum_zero N (fun a => 0 * x a)) by (intros; lra). lra.
    + assert (Z0 : sum N (fun a => L k a * x a) = 0).
      { rewrite (sum_cut N (S k)) by (try lia; intros a Ha; rewrite H0 by lia; lra).
        cbn [sum]. rewrite (H1 k) by lia. pose proof (Hk k ltac:(lia)). lra. }
      rewrite Z0. lra.
Qed.

Lemma LTDL_posdef N Q : lsym N Q -> lposdef N Q -> exists L D, LTDL N Q = Done (L, D).
Proof.
  intros Hs Hp. unfold LTDL.
  pose proof (ltdl_loop_inv N Q N Q (fun _ _ => 0) (fun _ => 0) (le_n N) (linv_init N Q)) as H.
  destruct (ltdl_loop N Q _ _) as [| | |[L D]]; try contradiction.
  - destruct H as (i & W & L & D & Hi & HI & Hw).
    destruct (pivot_value N Q i W L D Hs HI Hi) as (x & Hx & E).
    assert (0 < lquad N Q x) by (apply Hp; exists i; split; [exact Hi|rewrite Hx; lra]). lra.
  - exists L, D. reflexivity.
Qed.
Lemma LTDL_exit N Q : lsym N Q -> ~ lposdef N Q -> LTDL N Q = Exit.
Proof.
  intros Hs Hp. destruct (LTDL N Q) as [| | |[L D]] eqn:E.
  1, 2: unfold LTDL in E; pose proof (ltdl_loop_inv N Q N Q (fun _ _ => 0) (fun _ => 0) (le_n N) (linv_init N Q)) as H;
        rewrite E in H; contradiction.
  - reflexivity.
  - exfalso. apply Hp. destruct (LTDL_factors N Q L D Hs E) as [[H1 H0] [Hd Hq]].
    intros x Hx.
    assert (Ex : leq N x x) by (intros j Hj; reflexivity).
    rewrite (lquad_ext N Q (fun a b => 0 + sum N (fun k => L k a * D k * L k b)) x x).
    2: intros a b Ha Hb; rewrite <- (Hq a b Ha Hb); unfold LtDL; lra.
    2: exact Ex.
    rewrite (quad_sum N (fun _ _ => 0)).
    rewrite (sum_zero N (fun a => sum N _)) by (intros a Ha; apply sum_zero; intros; lra).
    rewrite Rplus_0_l.
    (* the first component that is not 0 *)
    assert (F : exists i, (i < N)%nat /\ x i <> 0 /\ forall j, (j < i)%nat -> x j = 0).
    { clear - Hx. destruct Hx as (i & Hi & Hne).
      assert (G : forall m, (forall j, (j < m)%nat -> x j = 0) \/
                  exists i, (i < m)%nat /\ x i <> 0 /\ forall j, (j < i)%nat -> x j = 0).
      { induction m as [|m [IH|(j & Hj & IH)]].
        - left. intros; lia.
        - destruct (Req_dec (x m) 0) as [E|E].
          + left. intros j Hj. destruct (Nat.eq_dec j m) as [->|]; [exact E|apply IH; lia].
          + right. exists m. split; [lia|split; [exact E|exact IH]].
        - right. exists j. split; [lia|exact IH]. }
      destruct (G N) as [G'|G']; [exfalso; apply Hne, G', Hi|exact G']. }
    destruct F as (i & Hi & Hne & Hl).
    apply (sum_pos N _ i).
    + intros k Hk. apply Rmult_le_pos; [left; apply Hd, Hk|apply Rle_0_sqr].
    + exact Hi.
    + assert (E1 : sum N (fun a => L i a * x a) = x i).
      { rewrite (sum_one N _ i Hi).
        - rewrite H1 by exact Hi. lra.
        - intros a Ha Hn. destruct (Nat.lt_ge_cases a i) as [Hlt|Hge]; [rewrite Hl by exact Hlt; lra|].
          rewrite H0 by lia. lra. }
      rewrite E1. apply Rmult_lt_0_compat; [apply Hd, Hi|].
      destruct (Rtotal_order (x i) 0) as [?|[?|?]]; [nra|lra|nra].
Qed.

(** ** Integer transformations *)
Record rinv (N : nat) (Q : lmat) (a : lvec) (s : red) : Prop := RInv {
  ri_low : unit_lower N (rL s);
  ri_pos : forall i, (i < N)%nat -> 0 < rD s i;
  ri_uni : unimodular N (rZ s);
  ri_cov : lmeq N N (LtDL N (rL s) (rD s)) (congr N Q (zmat (rZ s)));
  ri_vec : leq N (ra s) (lmv N (ltr (zmat (rZ s))) a) }.

Lemma congr_mm N Q A E : lmeq N N (congr N Q (lmm N A E)) (congr N (congr N Q A) E).
Proof.
  intros i j Hi Hj. unfold congr.
  rewrite (lmm_ext N (ltr (lmm N A E)) (lmm N (ltr E) (ltr A)) (lmm N Q (lmm N A E)) (lmm N (lmm N Q A) E) N N);
    try assumption.
  - rewrite lmm_assoc. apply (lmm_ext N _ _ _ _ N N); try assumption; try apply lmeq_refl.
    intros p q Hp Hq. symmetry. apply lmm_assoc.
  - intros p q Hp Hq. apply lmm_tr.
  - intros p q Hp Hq. symmetry. apply lmm_assoc.
Qed.
Lemma congr_ext N Q Q' A A' : lmeq N N Q Q' -> lmeq N N A A' -> lmeq N N (congr N Q A) (congr N Q' A').
Proof.
  intros HQ HA. apply lmm_ext; [apply lmeq_tr; exact HA|]. apply lmm_ext; assumption.
Qed.
Lemma LtDL_congr N L D A : lmeq N N (LtDL N (lmm N L A) D) (congr N (LtDL N L D) A).
Proof.
  intros i j Hi Hj. unfold LtDL, congr, lmm, ltr.
  rewrite (sum_ext N (fun k => sum N _ * D k * sum N _)
    (fun k => sum N (fun p => A p i * sum N (fun q => L k p * D k * L k q * A q j)))).
  - rewrite sum_swap. apply sum_ext. intros p Hp. rewrite sum_scal. f_equal.
    rewrite sum_swap. apply sum_ext. intros q Hq. rewrite <- sum_scalr. reflexivity.
  - intros k Hk. rewrite <- !sum_scalr. apply sum_ext. intros p Hp. rewrite <- !sum_scal.
    apply sum_ext. intros; lra.
Qed.
Lemma LtDL_ext N L L' D D' : lmeq N N L L' -> leq N D D' -> lmeq N N (LtDL N L D) (LtDL N L' D').
Proof. intros HL HD i j Hi Hj. apply sum_ext. intros k Hk. rewrite !HL, HD by assumption. reflexivity. Qed.

(** Z becomes Z E for a matrix E with an integer inverse *)
Lemma unimodular_mm N A E B : unimodular N A -> unimodular N E ->
  lmeq N N (zmat B) (lmm N (zmat A) (zmat E)) -> unimodular N B.
Proof.
  intros (A' & HA1 & HA2) (E' & HE1 & HE2) HB.
  exists (fun i j => zsum N (fun k => (E' i k * A' k j)%Z)).
  assert (G : lmeq N N (zmat (fun i j => zsum N (fun k => (E' i k * A' k j)%Z))) (lmm N (zmat E') (zmat A'))).
  { intros i j Hi Hj. unfold zmat, lmm. clear. induction N as [|n IH]; [reflexivity|].
    cbn [zsum sum]. rewrite plus_IZR, mult_IZR, IH. reflexivity. }
  split.
  - intros i j Hi Hj.
    rewrite (lmm_ext N _ _ _ _ N N HB G i j Hi Hj), lmm_assoc.
    rewrite (lmm_ext N (zmat A) (zmat A) _ (zmat A') N N); try assumption; [apply HA1; assumption|apply lmeq_refl|].
    intros p q Hp Hq. rewrite <- lmm_assoc.
    rewrite (lmm_ext N _ lid (zmat A') (zmat A') N N); try assumption; [apply (lmm_id_l N N); assumption|apply lmeq_refl].
  - intros i j Hi Hj.
    rewrite (lmm_ext N _ _ _ _ N N G HB i j Hi Hj), lmm_assoc.
    rewrite (lmm_ext N (zmat E') (zmat E') _ (zmat E) N N); try assumption; [apply HE2; assumption|apply lmeq_refl|].
    intros p q Hp Hq. rewrite <- lmm_assoc.
    rewrite (lmm_ext N _ lid (zmat E) (zmat E) N N); try assumption; [apply (lmm_id_l N N); assumption|apply lmeq_refl].
Qed.

Lemma rinv_step N Q a s E s' : rinv N Q a s -> unimodular N E ->
  unit_lower N (rL s') -> (forall i, (i < N)%nat -> 0 < rD s' i) ->
  lmeq N N (LtDL N (rL s') (rD s')) (congr N (LtDL N (rL s) (rD s)) (zmat E)) ->
  lmeq N N (zmat (rZ s')) (lmm N (zmat (rZ s)) (zmat E)) ->
  leq N (ra s') (lmv N (ltr (zmat E)) (ra s)) ->
  rinv N Q a s'.
Proof.
  intros [Hl Hp Hu Hc Hv] HE Hl' Hp' Hc' Hz' Hv'. split.
  - exact Hl'.
  - exact Hp'.
  - apply (unimodular_mm N (rZ s) E); assumption.
  - eapply lmeq_trans; [exact Hc'|]. apply lmeq_sym.
    eapply lmeq_trans; [apply congr_ext; [apply lmeq_refl|exact Hz']|].
    eapply lmeq_trans; [apply congr_mm|]. apply congr_ext; [apply lmeq_sym, Hc|apply lmeq_refl].
  - intros i Hi. rewrite (Hv' i Hi).
    rewrite (lmv_ext N N (ltr (zmat E)) (ltr (zmat E)) _ _ (lmeq_refl _ _ _) Hv i Hi).
    rewrite <- lmv_mm. apply (lmv_ext N N); try assumption; [|intros j Hj; reflexivity].
    intros p q Hpp Hq. rewrite <- lmm_tr. symmetry. apply (Hz' q p); assumption.
Qed.

(** The elementary matrices *)
Definition elem (i j : nat) (mu : Z) (r c : nat) : Z :=
  ((if Nat.eqb r c then 1 else 0) - (if andb (Nat.eqb r i) (Nat.eqb c j) then mu else 0))%Z.
Lemma elem_r N A i j mu : (i < N)%nat ->
  forall r c, (c < N)%nat -> lmm N A (zmat (elem i j mu)) r c = A r c - (if Nat.eqb c j then IZR mu * A r i else 0).
Proof.
  intros Hi r c Hc. unfold lmm.
  assert (E : forall k, A r k * zmat (elem i j mu) k c =
     A r k * lid k c - (if Nat.eqb k i then if Nat.eqb c j then A r k * IZR mu else 0 else 0)).
  { intros k. unfold zmat, elem, lid. rewrite minus_IZR.
    destruct (Nat.eqb k c), (Nat.eqb k i), (Nat.eqb c j); cbn [andb]; lra. }
  rewrite (sum_ext N _ _ (fun k _ => E k)), sum_minus. f_equal.
  - apply (lmm_id_r N (S r)); lia.
  - rewrite (sum_one N _ i Hi).
    + rewrite Nat.eqb_refl. destruct (Nat.eqb c j); lra.
    + intros k Hk Hne. apply Nat.eqb_neq in Hne. rewrite Hne. reflexivity.
Qed.
Lemma elem_unimodular N i j mu : (i < N)%nat -> i <> j -> unimodular N (elem i j mu).
Proof.
  intros Hi Hij. exists (elem i j (- mu)).
  assert (G : forall m m', (m + m' = 0)%Z -> lmeq N N (lmm N (zmat (elem i j m)) (zmat (elem i j m'))) lid).
  { intros m m' Hm r c Hr Hc. rewrite elem_r by assumption. unfold zmat, elem, lid. rewrite !minus_IZR.
    replace m' with (- m)%Z by lia. rewrite opp_IZR.
    destruct (Nat.eqb_spec r c), (Nat.eqb_spec r i), (Nat.eqb_spec c j), (Nat.eqb_spec i j); subst; cbn [andb];
      try contradiction; try lra. }
  split; apply G; lia.
Qed.

Lemma igt_inv N Q a i j s : rinv N Q a s -> (j < i < N)%nat -> rinv N Q a (igt N i j s).
Proof.
  intros HI Hij. unfold igt. destruct (Z.eqb_spec (rnd (rL s i j)) 0) as [E0|E0]; [exact HI|].
  set (mu := rnd (rL s i j)). clearbody mu.
  pose proof (ri_low _ _ _ _ HI) as [H1 H0].
  assert (HL : lmeq N N (fun r c => if andb (Nat.eqb c j) (Nat.leb i r) then rL s r j - IZR mu * rL s r i else rL s r c)
                     (lmm N (rL s) (zmat (elem i j mu)))).
  { intros r c Hr Hc. rewrite elem_r by lia.
    destruct (Nat.eqb_spec c j) as [->|]; cbn [andb]; [|lra].
    destruct (Nat.leb_spec i r); [reflexivity|]. rewrite (H0 r i) by lia. lra. }
  apply (rinv_step N Q a s (elem i j mu)); [exact HI|apply elem_unimodular; lia| | | | |]; cbn [rL rD ra rZ].
  - split.
    + intros r Hr. destruct (Nat.eqb_spec r j) as [->|]; cbn [andb]; [|apply H1; exact Hr].
      destruct (Nat.leb_spec i j); [lia|apply H1; exact Hr].
    + intros r c Hrc. destruct (Nat.eqb_spec c j) as [->|]; cbn [andb]; [|apply H0; exact Hrc].
      destruct (Nat.leb_spec i r); [lia|apply H0; exact Hrc].
  - apply (ri_pos _ _ _ _ HI).
  - eapply lmeq_trans; [apply LtDL_ext; [exact HL|intros k Hk; reflexivity]|]. apply LtDL_congr.
  - intros r c Hr Hc. rewrite elem_r by lia. unfold zmat.
    destruct (Nat.eqb_spec c j) as [->|]; [|lra]. rewrite minus_IZR, mult_IZR. reflexivity.
  - intros c Hc. unfold set1, lmv, ltr.
    rewrite (sum_ext N _ (fun k => ra s k * zmat (elem i j mu) k c)) by (intros; apply Rmult_comm).
    change (sum N (fun k => ra s k * zmat (elem i j mu) k c)) with (lmm N (fun _ k => ra s k) (zmat (elem i j mu)) O c).
    rewrite elem_r by lia. destruct (Nat.eqb_spec c j) as [->|]; lra.
Qed.

Definition swapm (k r c : nat) : Z := if Nat.eqb r (tau k c) then 1%Z else 0%Z.
Lemma tau_lt N k c : (S k < N)%nat -> (c < N)%nat -> (tau k c < N)%nat.
Proof. intros Hk Hc. unfold tau. destruct (Nat.eqb c k), (Nat.eqb c (S k)); lia. Qed.
Lemma tau_tau k c : tau k (tau k c) = c.
Proof.
  unfold tau. destruct (Nat.eqb_spec c k) as [->|H1].
  - destruct (Nat.eqb_spec (S k) k); [lia|]. rewrite Nat.eqb_refl. reflexivity.
  - destruct (Nat.eqb_spec c (S k)) as [->|H2].
    + rewrite Nat.eqb_refl. reflexivity.
    + destruct (Nat.eqb_spec c k); [lia|]. destruct (Nat.eqb_spec c (S k)); [lia|reflexivity].
Qed.
Lemma swap_r N A k r c : (S k < N)%nat -> (c < N)%nat -> lmm N A (zmat (swapm k)) r c = A r (tau k c).
Proof.
  intros Hk Hc. unfold lmm, zmat, swapm. rewrite (sum_one N _ (tau k c) (tau_lt N k c Hk Hc)).
  - rewrite Nat.eqb_refl. lra.
  - intros i Hi Hne. apply Nat.eqb_neq in Hne. rewrite Hne. lra.
Qed.
Lemma swap_unimodular N k : (S k < N)%nat -> unimodular N (swapm k).
Proof.
  intros Hk. exists (swapm k).
  assert (G : lmeq N N (lmm N (zmat (swapm k)) (zmat (swapm k))) lid).
  { intros r c Hr Hc. rewrite swap_r by assumption. unfold zmat, swapm, lid.
    rewrite tau_tau. destruct (Nat.eqb r c); reflexivity. }
  split; exact G.
Qed.
Lemma swap_congr N A k i j : (S k < N)%nat -> (i < N)%nat -> (j < N)%nat ->
  congr N A (zmat (swapm k)) i j = A (tau k i) (tau k j).
Proof.
  intros Hk Hi Hj. unfold congr.
  assert (E : lmm N (ltr (zmat (swapm k))) (lmm N A (zmat (swapm k))) i j =
              lmm N (ltr (lmm N A (zmat (swapm k)))) (zmat (swapm k)) j i).
  { unfold ltr, lmm. apply sum_ext. intros; lra. }
  rewrite E, swap_r by assumption. unfold ltr. apply swap_r; assumption.
Qed.

Lemma pair_identity d e l u v u' v' delta : delta = d + l * l * e -> 0 < delta ->
  (- l * u + v) * (d / delta * e) * (- l * u' + v') +
  (d / delta * u + e * l / delta * v) * delta * (d / delta * u' + e * l / delta * v') =
  u * d * u' + v * e * v'.
Proof.
  intros E Hp.
  replace ((- l * u + v) * (d / delta * e) * (- l * u' + v') +
    (d / delta * u + e * l / delta * v) * delta * (d / delta * u' + e * l / delta * v'))
    with ((d * u * u' * (d + l * l * e) + e * v * v' * (d + l * l * e)) / delta) by (field; lra).
  rewrite <- E. field. lra.
Qed.

Lemma permute_rows k delta s N : unit_lower N (rL s) -> (S k < N)%nat -> 0 < delta ->
  delta = rD s k + rL s (S k) k * rL s (S k) k * rD s (S k) ->
  forall p, (p < N)%nat ->
  rL (permute k delta s) k p = - rL s (S k) k * rL s k (tau k p) + rL s (S k) (tau k p) /\
  rL (permute k delta s) (S k) p = rD s k / delta * rL s k (tau k p) + rD s (S k) * rL s (S k) k / delta * rL s (S k) (tau k p).
Proof.
  intros [H1 H0] Hk Hd E p Hp. unfold permute, tau. cbn [rL].
  destruct (Nat.leb_spec (k + 2) k); [lia|]. destruct (Nat.leb_spec (k + 2) (S k)); [lia|].
  rewrite !Nat.eqb_refl. destruct (Nat.eqb_spec k (S k)); [lia|]. destruct (Nat.eqb_spec (S k) k); [lia|].
  cbn [andb].
  destruct (Nat.ltb_spec p k).
  - destruct (Nat.eqb_spec p k); [lia|]. destruct (Nat.eqb_spec p (S k)); [lia|]. split; reflexivity.
  - destruct (Nat.eqb_spec p k) as [->|].
    + rewrite (H1 k), (H1 (S k)), (H0 k (S k)) by lia. split; [lra|field; lra].
    + destruct (Nat.eqb_spec p (S k)) as [->|].
      * rewrite (H1 k), (H1 (S k)), (H0 k (S k)) by lia. split; [lra|].
        replace (rD s k / delta * 1 + rD s (S k) * rL s (S k) k / delta * rL s (S k) k)
          with ((rD s k + rL s (S k) k * rL s (S k) k * rD s (S k)) / delta) by (field; lra).
        rewrite <- E. field. lra.
      * rewrite (H0 k p), (H0 (S k) p) by lia. split; lra.
Qed.
Lemma permute_other k delta s N : unit_lower N (rL s) -> (S k < N)%nat ->
  forall r p, (r < N)%nat -> (p < N)%nat -> r <> k -> r <> S k -> rL (permute k delta s) r p = rL s r (tau k p).
Proof.
  intros [H1 H0] Hk r p Hr Hp Hn1 Hn2. unfold permute. cbn [rL].
  destruct (Nat.eqb_spec r k); [lia|]. destruct (Nat.eqb_spec r (S k)); [lia|]. cbn [andb].
  unfold tau. destruct (Nat.ltb_spec p k).
  - destruct (Nat.eqb_spec p k); [lia|]. destruct (Nat.eqb_spec p (S k)); [lia|reflexivity].
  - destruct (Nat.leb_spec (k + 2) r); [reflexivity|].
    destruct (Nat.eqb_spec p k) as [->|]; [rewrite !H0 by lia; reflexivity|].
    destruct (Nat.eqb_spec p (S k)) as [->|]; [rewrite !H0 by lia; reflexivity|reflexivity].
Qed.
Lemma permute_D k delta s :
  rD (permute k delta s) k = rD s k / delta * rD s (S k) /\ rD (permute k delta s) (S k) = delta /\
  forall i, i <> k -> i <> S k -> rD (permute k delta s) i = rD s i.
Proof.
  unfold permute, set1. cbn [rD]. rewrite !Nat.eqb_refl. destruct (Nat.eqb_spec k (S k)); [lia|].
  split; [reflexivity|split; [reflexivity|]]. intros i Hi Hi'.
  destruct (Nat.eqb_spec i (S k)); [lia|]. destruct (Nat.eqb_spec i k); [lia|reflexivity].
Qed.

Lemma permute_inv N Q a k s : rinv N Q a s -> (S k < N)%nat ->
  rinv N Q a (permute k (rD s k + rL s (S k) k * rL s (S k) k * rD s (S k)) s).
Proof.
  intros HI Hk. set (delta := rD s k + rL s (S k) k * rL s (S k) k * rD s (S k)).
  pose proof (ri_low _ _ _ _ HI) as HL. pose proof (ri_pos _ _ _ _ HI) as HP.
  assert (Hdk := HP k ltac:(lia)). assert (Hdk1 := HP (S k) ltac:(lia)).
  assert (Hdel : 0 < delta).
  { unfold delta. pose proof (Rle_0_sqr (rL s (S k) k)) as Hs. unfold Rsqr in Hs.
    pose proof (Rmult_le_pos _ _ Hs (Rlt_le _ _ Hdk1)). lra. }
  pose proof (permute_rows k delta s N HL Hk Hdel eq_refl) as Hrows.
  pose proof (permute_other k delta s N HL Hk) as Hother.
  pose proof (permute_D k delta s) as (D1 & D2 & D3).
  destruct HL as [H1 H0].
  apply (rinv_step N Q a s (swapm k)); [exact HI|apply swap_unimodular; exact Hk| | | | |].
  - split.
    + intros r Hr. destruct (Nat.eq_dec r k) as [->|Hn1].
      * destruct (Hrows k Hr) as [-> _]. unfold tau. rewrite Nat.eqb_refl.
        rewrite (H0 k (S k)), (H1 (S k)) by lia. lra.
      * destruct (Nat.eq_dec r (S k)) as [->|Hn2].
        -- destruct (Hrows (S k) Hr) as [_ ->]. unfold tau. destruct (Nat.eqb_spec (S k) k); [lia|].
           rewrite Nat.eqb_refl, (H1 k) by lia.
           replace (rD s k / delta * 1 + rD s (S k) * rL s (S k) k / delta * rL s (S k) k)
             with (delta / delta) by (unfold delta at 1; field; lra). field. lra.
        -- rewrite Hother by assumption. unfold tau. destruct (Nat.eqb_spec r k); [lia|].
           destruct (Nat.eqb_spec r (S k)); [lia|]. apply H1. exact Hr.
    + intros r c Hrc. destruct (Nat.eq_dec r k) as [->|Hn1].
      * destruct (Hrows c ltac:(lia)) as [-> _]. unfold tau. destruct (Nat.eqb_spec c k); [lia|].
        destruct (Nat.eqb_spec c (S k)) as [->|].
        -- rewrite (H1 k) by lia. lra.
        -- rewrite (H0 k c), (H0 (S k) c) by lia. lra.
      * destruct (Nat.eq_dec r (S k)) as [->|Hn2].
        -- destruct (Hrows c ltac:(lia)) as [_ ->]. unfold tau. destruct (Nat.eqb_spec c k); [lia|].
           destruct (Nat.eqb_spec c (S k)); [lia|]. rewrite (H0 k c), (H0 (S k) c) by lia. lra.
        -- rewrite Hother by (assumption || lia). unfold tau.
           destruct (Nat.eqb_spec c k) as [->|]; [apply H0; lia|].
           destruct (Nat.eqb_spec c (S k)) as [->|]; [apply H0; lia|apply H0; lia].
  - intros i Hi. destruct (Nat.eq_dec i k) as [->|Hn1].
    + rewrite D1. apply Rmult_lt_0_compat; [|exact Hdk1]. apply Rdiv_lt_0_compat; assumption.
    + destruct (Nat.eq_dec i (S k)) as [->|Hn2]; [rewrite D2; exact Hdel|]. rewrite D3 by assumption. apply HP, Hi.
  - intros i j Hi Hj. rewrite swap_congr by assumption. unfold LtDL.
    apply (sum_two N _ _ k Hk).
    + intros r Hr Hn1 Hn2. rewrite !Hother, D3 by assumption. reflexivity.
    + destruct (Hrows i Hi) as [-> ->]. destruct (Hrows j Hj) as [-> ->]. rewrite D1, D2.
      apply pair_identity; [reflexivity|exact Hdel].
  - intros r c Hr Hc. rewrite swap_r by assumption. reflexivity.
  - intros c Hc. unfold lmv, ltr.
    rewrite (sum_ext N _ (fun i => ra s i * zmat (swapm k) i c)) by (intros; apply Rmult_comm).
    change (sum N (fun i => ra s i * zmat (swapm k) i c)) with (lmm N (fun _ i => ra s i) (zmat (swapm k)) O c).
    rewrite swap_r by assumption. reflexivity.
Qed.

Lemma igts_inv N Q a k : forall c s, rinv N Q a s -> (c <= N - S k)%nat -> rinv N Q a (igts N k c s).
Proof.
  induction c as [|c IH]; intros s HI Hc; cbn [igts]; [exact HI|].
  apply IH; [|lia]. apply igt_inv; [exact HI|lia].
Qed.
Lemma pass_inv N Q a k1 : forall k s, (k < N)%nat \/ k = O -> rinv N Q a s -> rinv N Q a (fst (pass N k k1 s)).
Proof.
  induction k as [|k IH]; intros s Hk HI; cbn [pass]; [exact HI|].
  assert (HI1 : rinv N Q a (if Nat.leb k k1 then igts N k (N - S k) s else s)).
  { destruct (Nat.leb k k1); [|exact HI]. apply igts_inv; [exact HI|lia]. }
  set (s1 := if Nat.leb k k1 then igts N k (N - S k) s else s) in *. clearbody s1. cbv zeta.
  destruct (Rlt_dec _ _) as [Hd|Hd]; cbn [fst].
  - apply permute_inv; [exact HI1|lia].
  - apply IH; [lia|exact HI1].
Qed.
Lemma reduce_loop_inv N Q a rounds : forall k1 s s', rinv N Q a s -> reduce_loop rounds N k1 s = Done s' -> rinv N Q a s'.
Proof.
  induction rounds as [|n IH]; intros k1 s s' HI E; cbn [reduce_loop] in E; [discriminate|].
  pose proof (pass_inv N Q a k1 (N - 1) s ltac:(lia) HI) as HP.
  destruct (pass N (N - 1) k1 s) as [s1 [k|]]; cbn [fst] in HP.
  - apply (IH k s1 s'); assumption.
  - injection E as <-. exact HP.
Qed.
Lemma rinv_init N Q a L D : lsym N Q -> LTDL N Q = Done (L, D) ->
  rinv N Q a (Red L D a (fun r c => if Nat.eqb r c then 1%Z else 0%Z)).
Proof.
  intros Hs E. destruct (LTDL_factors N Q L D Hs E) as (Hl & Hp & Hq).
  assert (EI : lmeq N N (zmat (fun r c => if Nat.eqb r c then 1%Z else 0%Z)) lid).
  { intros r c Hr Hc. unfold zmat, lid. destruct (Nat.eqb r c); reflexivity. }
  split; cbn [rL rD ra rZ].
  - exact Hl.
  - exact Hp.
  - exists (fun r c => if Nat.eqb r c then 1%Z else 0%Z).
    assert (G : lmeq N N (lmm N (zmat (fun r c => if Nat.eqb r c then 1%Z else 0%Z))
                               (zmat (fun r c => if Nat.eqb r c then 1%Z else 0%Z))) lid).
    { eapply lmeq_trans; [apply lmm_ext; [exact EI|exact EI]|]. apply lmm_id_l. }
    split; exact G.
  - eapply lmeq_trans; [exact Hq|]. apply lmeq_sym.
    eapply lmeq_trans; [apply congr_ext; [apply lmeq_refl|exact EI]|]. unfold congr.
    intros i j Hi Hj.
    assert (ET : lmeq N N (ltr lid) lid).
    { intros r c Hr Hc. unfold ltr, lid. rewrite Nat.eqb_sym. reflexivity. }
    rewrite (lmm_ext N _ _ _ _ N N ET (lmm_id_r N N Q) i j Hi Hj). apply (lmm_id_l N N); assumption.
  - intros i Hi.
    assert (EI' : lmeq N N (ltr (zmat (fun r c => if Nat.eqb r c then 1%Z else 0%Z))) lid).
    { intros r c Hr Hc. unfold ltr, zmat, lid. rewrite Nat.eqb_sym. destruct (Nat.eqb r c); reflexivity. }
    symmetry. rewrite (lmv_ext N N _ _ a a EI' (fun j _ => eq_refl) i Hi). apply lmv_id. exact Hi.
Qed.
Lemma reduction_inv N Q a rounds s : lsym N Q -> reduction rounds N Q a = Done s -> rinv N Q a s.
Proof.
  intros Hs E. unfold reduction, bind in E. destruct (LTDL N Q) as [| | |[L D]] eqn:EL; try discriminate.
  cbn [fst snd] in E. apply (reduce_loop_inv N Q a rounds _ _ _ (rinv_init N Q a L D Hs EL) E).
Qed.
