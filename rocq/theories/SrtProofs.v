From Coq Require Import ZArith Reals Arith Bool List Permutation Sorted Lia Lra.
From Flocq Require Import Core IEEE754.BinarySingleNaN.
From Verif Require Import Float64 SrtModel SrtSpec.
Import ListNotations.

(** ** The order of the numbers *)
Definition key (x : b64) : R := match x with B754_infinity false => bpow radix2 emax | B754_infinity true => (- bpow radix2 emax)%R | _ => val x end.
Lemma flt_key x y : number x -> number y -> flt x y = Rlt_bool (key x) (key y).
Proof.
  intros X Y. assert (0 < bpow radix2 emax)%R as P by apply bpow_gt_0.
  assert (forall z : b64, Rabs (val z) < bpow radix2 emax)%R as B by (intros z; apply abs_B2R_lt_emax).
  destruct (finite x) eqn:FX, (finite y) eqn:FY.
  - rewrite (flt_ok x y FX FY). f_equal; unfold key; [destruct x|destruct y]; reflexivity || discriminate.
  - destruct y as [| [|] | |]; try discriminate; try (exfalso; apply Y; reflexivity); specialize (B x); apply Rabs_def2 in B;
      (assert (key x = val x) as -> by (destruct x; reflexivity || discriminate)); cbn [key]; [rewrite Rlt_bool_false by lra|rewrite Rlt_bool_true by lra]; destruct x as [| | | [|]]; reflexivity || discriminate.
  - destruct x as [| [|] | |]; try discriminate; try (exfalso; apply X; reflexivity); specialize (B y); apply Rabs_def2 in B;
      (assert (key y = val y) as -> by (destruct y; reflexivity || discriminate)); cbn [key]; [rewrite Rlt_bool_true by lra|rewrite Rlt_bool_false by lra]; destruct y as [| | | [|]]; reflexivity || discriminate.
  - destruct x as [| [|] | |]; try discriminate; try (exfalso; apply X; reflexivity); destruct y as [| [|] | |]; try discriminate; try (exfalso; apply Y; reflexivity); cbn [key];
      first [rewrite Rlt_bool_true by lra|rewrite Rlt_bool_false by lra]; reflexivity.
Qed.
Lemma data_number x : Forall number x -> forall a, In a (data x) -> number (snd a).
Proof. intros F [i a] I. apply in_combine_r in I. exact (proj1 (Forall_forall _ _) F a I). Qed.
Lemma bool_lt a b : Rlt_bool a b = true <-> (a < b)%R.
Proof. destruct (Rlt_bool_spec a b); split; intros; try discriminate; try reflexivity; lra. Qed.
Lemma bool_ge a b : Rlt_bool a b = false <-> (b <= a)%R.
Proof. destruct (Rlt_bool_spec a b); split; intros; try discriminate; try reflexivity; lra. Qed.
Lemma numbers_weak x : Forall number x -> strict_weak (data x).
Proof.
  intros F. pose proof (data_number x F) as N. unfold strict_weak, comp. split; [|split].
  - intros a A. rewrite flt_key by (apply N; exact A). apply Rlt_bool_false. lra.
  - intros a b c A B C. rewrite !flt_key by (apply N; assumption). rewrite !bool_lt. lra.
  - intros a b c A B C. rewrite !flt_key by (apply N; assumption). rewrite !bool_ge. lra.
Qed.
Lemma data_nth (x : list b64) : forall s i a, nth_error x i = Some a <-> nth_error (combine (seq s (length x)) x) i = Some (s + i, a).
Proof.
  induction x as [|b x IH]; intros s i a; cbn [length seq combine]; [destruct i; split; discriminate|]. destruct i as [|i]; cbn [nth_error].
  - rewrite Nat.add_0_r. split; intros E; injection E as ->; reflexivity.
  - rewrite (IH (S s)). replace (S s + i) with (s + S i) by lia. reflexivity.
Qed.
Lemma data_in x i a : nth_error x i = Some a -> In (i, a) (data x).
Proof. intros H. apply (data_nth x 0) in H. exact (nth_error_In _ _ H). Qed.
Lemma nan_weak x i j k a b : nth_error x i = Some a -> nth_error x j = Some b -> nth_error x k = Some B754_nan -> flt a b = true -> ~ strict_weak (data x).
Proof.
  intros A B N L (_ & _ & W). apply data_in in A, B, N. specialize (W _ _ _ A N B). unfold comp in W. cbn [snd] in W.
  assert (forall z : b64, flt z B754_nan = false) as R by (intros [[|]|[|]| |[|]]; reflexivity). assert (forall z : b64, flt B754_nan z = false) as R' by (intros [[|]|[|]| |[|]]; reflexivity).
  rewrite !R, !R', L in W. specialize (W eq_refl eq_refl eq_refl eq_refl). discriminate.
Qed.

(** ** The indices *)
Lemma put_length r : forall k i, length (put r k i) = length r.
Proof. induction r as [|a r IH]; intros [|k] i; cbn [put length]; try reflexivity. f_equal. apply IH. Qed.
Lemma put_same r : forall k i, k < length r -> nth_error (put r k i) k = Some (Some i).
Proof. induction r as [|a r IH]; intros [|k] i L; cbn [put length nth_error] in *; try lia; [reflexivity|]. apply IH. lia. Qed.
Lemma put_other r : forall k i j, j <> k -> nth_error (put r k i) j = nth_error r j.
Proof. induction r as [|a r IH]; intros [|k] i [|j] L; cbn [put nth_error]; try reflexivity; try lia. apply IH. lia. Qed.
Lemma fill_length d : forall i r, length (fill d i r) = length r.
Proof. induction d as [|p d IH]; intros i r; [reflexivity|]. cbn [fill]. rewrite IH. apply put_length. Qed.
Lemma fill_other d : forall i r k, ~ In k (map fst d) -> nth_error (fill d i r) k = nth_error r k.
Proof.
  induction d as [|p d IH]; intros i r k N; [reflexivity|]. cbn [fill]. cbn [map In] in N. rewrite IH by (intros F; apply N; right; exact F). apply put_other. intros ->. apply N. left. reflexivity.
Qed.
Lemma fill_at d : forall i r j k v, NoDup (map fst d) -> k < length r -> nth_error d j = Some (k, v) -> nth_error (fill d i r) k = Some (Some (i + j)).
Proof.
  induction d as [|p d IH]; intros i r j k v ND L E; [destruct j; discriminate|]. cbn [map] in ND. apply NoDup_cons_iff in ND. destruct ND as [NI ND]. cbn [fill]. destruct j as [|j]; cbn [nth_error] in E.
  - injection E as ->. cbn [fst] in NI |- *. rewrite fill_other by exact NI. rewrite put_same by exact L. rewrite Nat.add_0_r. reflexivity.
  - rewrite (IH (S i) _ j k v ND); [f_equal; f_equal; lia|rewrite put_length; exact L|exact E].
Qed.
Lemma data_fst x : map fst (data x) = seq 0 (length x).
Proof. unfold data. generalize 0. induction x as [|a x IH]; intros s; [reflexivity|]. cbn [length seq combine map fst]. f_equal. apply IH. Qed.
Lemma sorts x r : argsort x r -> exists y, placed x r y /\ ascending y.
Proof.
  intros (d & [P S] & ->). assert (NoDup (map fst d)) as ND by (apply (Permutation_NoDup (Permutation_map fst P)); rewrite data_fst; apply seq_NoDup).
  assert (length d = length x) as L by (rewrite <- (Permutation_length P); unfold data; rewrite combine_length, seq_length; lia).
  assert (forall i a, nth_error x i = Some a -> exists p, nth_error d p = Some (i, a) /\ nth_error (fill d 0 (repeat None (length x))) i = Some (Some p)) as K.
  { intros i a E. pose proof (Permutation_in _ P (data_in x i a E)) as I. apply In_nth_error in I. destruct I as (p & I). exists p. split; [exact I|].
    rewrite (fill_at d 0 _ p i a ND); [reflexivity|rewrite repeat_length; apply nth_error_Some; rewrite E; discriminate|exact I]. }
  exists (map snd d). split; [split; [rewrite fill_length, repeat_length; reflexivity|]; split; [rewrite map_length; exact L|]; split|].
  - intros i a E. destruct (K i a E) as (p & I & F). exists p. split; [exact F|]. rewrite nth_error_map, I. reflexivity.
  - intros i j I E. destruct (nth_error x i) as [a|] eqn:A; [|apply nth_error_None in A; lia]. destruct (K i a A) as (p & D & F). rewrite F in E. symmetry in E.
    assert (j < length x) as J by (rewrite <- (repeat_length (@None nat) (length x)), <- (fill_length d 0); apply nth_error_Some; rewrite E; discriminate).
    destruct (nth_error x j) as [b|] eqn:B; [|apply nth_error_None in B; lia]. destruct (K j b B) as (q & D' & F'). rewrite F' in E. injection E as ->. rewrite D in D'. injection D' as -> _. reflexivity.
  - intros p q a b Q A B. rewrite nth_error_map in A, B. destruct (nth_error d p) as [[i a']|] eqn:DA; [|discriminate]. destruct (nth_error d q) as [[j b']|] eqn:DB; [|discriminate].
    cbn in A, B. injection A as ->. injection B as ->. exact (S p q _ _ Q DA DB).
Qed.
Lemma involution x r z : argsort x r -> (forall i p, nth_error r i = Some (Some p) -> nth_error r p = Some (Some i)) -> listed x r z -> ascending z.
Proof.
  intros A I [L Z]. destruct (sorts x r A) as (y & (LR & LY & P & D) & S).
  assert (forall k a, nth_error z k = Some a -> nth_error y k = Some a) as E.
  { intros k a K. assert (k < length x) as LK by (rewrite <- L; apply nth_error_Some; rewrite K; discriminate). destruct (nth_error x k) as [b|] eqn:B; [|apply nth_error_None in B; lia].
    destruct (P k b B) as (p & RK & YP). rewrite (Z k p RK) in K. destruct (P p a K) as (q & RP & YQ). rewrite (I k p RK) in RP. injection RP as <-. exact YQ. }
  intros p q a b Q Ha Hb. exact (S p q a b Q (E p a Ha) (E q b Hb)).
Qed.
(** ** There is a result *)
Lemma sorted_exists d : (forall a, In a d -> number (snd a)) -> exists d', sort_to d d'.
Proof.
  intros N. assert (exists d', Permutation d d' /\ StronglySorted (fun a b => (key (snd a) <= key (snd b))%R) d') as (d' & P & S).
  { clear N. induction d as [|a d (d' & P & S)]; [exists []; split; constructor|].
    assert (exists e, Permutation (a :: d') e /\ StronglySorted (fun a b => (key (snd a) <= key (snd b))%R) e) as (e & PE & SE).
    { clear P d. induction d' as [|b d IH]; [exists [a]; split; [reflexivity|repeat constructor]|]. apply StronglySorted_inv in S. destruct S as [S F]. destruct (Rle_dec (key (snd a)) (key (snd b))) as [L|L].
      - exists (a :: b :: d). split; [reflexivity|]. constructor; [constructor; assumption|]. constructor; [exact L|]. eapply Forall_impl; [|exact F]. cbv beta. intros c C. lra.
      - destruct (IH S) as (e & PE & SE). exists (b :: e). split; [rewrite perm_swap; constructor; exact PE|]. constructor; [exact SE|]. apply (Permutation_Forall PE). constructor; [lra|exact F]. }
    exists e. split; [rewrite <- PE; constructor; exact P|exact SE]. }
  exists d'. split; [exact P|]. assert (forall a, In a d' -> number (snd a)) as N' by (intros a I; apply N, (Permutation_in _ (Permutation_sym P)); exact I). clear P N.
  induction S as [|c e S IH F]; intros p q a b Q A B; [destruct p; discriminate|]. destruct q as [|q]; [lia|]. cbn [nth_error] in B. destruct p as [|p]; cbn [nth_error] in A.
  - injection A as <-. unfold comp. apply nth_error_In in B. rewrite flt_key by (apply N'; (left; reflexivity) || (right; exact B)). apply Rlt_bool_false. exact (proj1 (Forall_forall _ _) F b B).
  - apply (IH (fun a I => N' a (or_intror I)) p q a b); [lia|assumption|assumption].
Qed.
Lemma argsort_exists x : Forall number x -> exists r, argsort x r.
Proof. intros F. destruct (sorted_exists (data x) (data_number x F)) as (d & S). exists (fill d 0 (repeat None (length x))), d. split; [exact S|reflexivity]. Qed.
(** ** The places of 3, 1, 2 *)
Definition ex : list b64 := [of_Z 3; of_Z 1; of_Z 2].
Lemma ex_places r : argsort ex r -> r = [Some 2; Some 0; Some 1].
Proof.
  intros A. destruct (sorts ex r A) as (y & (LR & LY & P & _) & S).
  destruct (P 0 _ eq_refl) as (p & R0 & Y0). destruct (P 1 _ eq_refl) as (q & R1 & Y1). destruct (P 2 _ eq_refl) as (s & R2 & Y2).
  assert (flt (of_Z 1) (of_Z 2) = true) as F12 by (vm_compute; reflexivity). assert (flt (of_Z 2) (of_Z 3) = true) as F23 by (vm_compute; reflexivity).
  assert (q < s) as QS. { destruct (Nat.lt_trichotomy q s) as [H|[H|H]]; [exact H| |]. - subst s. rewrite Y1 in Y2. apply (f_equal (fun o => match o with Some v => flt v (of_Z 2) | None => true end)) in Y2. vm_compute in Y2. discriminate. - specialize (S s q _ _ H Y2 Y1). rewrite F12 in S. discriminate. }
  assert (s < p) as SP. { destruct (Nat.lt_trichotomy s p) as [H|[H|H]]; [exact H| |]. - subst s. rewrite Y0 in Y2. apply (f_equal (fun o => match o with Some v => flt v (of_Z 3) | None => true end)) in Y2. vm_compute in Y2. discriminate. - specialize (S p s _ _ H Y0 Y2). rewrite F23 in S. discriminate. }
  assert (p < 3) as P3 by (change 3 with (length ex); rewrite <- LY; apply nth_error_Some; rewrite Y0; discriminate).
  assert (p = 2 /\ q = 0 /\ s = 1) as (-> & -> & ->) by lia.
  destruct r as [|a [|b [|c [|e r]]]]; try discriminate LR. cbn [nth_error] in R0, R1, R2. injection R0 as ->. injection R1 as ->. injection R2 as ->. reflexivity.
Qed.
