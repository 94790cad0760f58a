(** Newton's method for Kepler's equation. *)
From Coq Require Import Reals Lra Lia Psatz.
From Verif Require Import RotModel RotTrigProofs OrbModel OrbSpec.
Local Open Scope R_scope.

(** ** Bounds on sine and cosine *)
Lemma mono_from0 f f' x : 0 <= x -> (forall c, derivable_pt_lim f c (f' c)) -> (forall c, 0 <= c <= x -> 0 <= f' c) -> f 0 <= f x.
Proof.
  intros X D P. destruct (Req_dec x 0) as [->|N]; [lra|].
  destruct (MVT_cor2 f f' 0 x ltac:(lra) ltac:(intros; apply D)) as (c & E & B).
  assert (0 <= f' c * (x - 0)) by (apply Rmult_le_pos; [apply P|]; lra). lra.
Qed.
Lemma abs_sin_le x : Rabs (sin x) <= Rabs x.
Proof.
  assert (forall y, 0 <= y -> Rabs (sin y) <= y) as H.
  { intros y Y. apply Rabs_le. split.
    - pose proof (mono_from0 (fun z => z + sin z) (fun z => 1 + cos z) y Y) as M. cbv beta in M. rewrite sin_0 in M.
      assert (0 + 0 <= y + sin y); [|lra]. apply M.
      + intros c. apply derivable_pt_lim_plus; [apply derivable_pt_lim_id|apply derivable_pt_lim_sin].
      + intros c _. pose proof (COS_bound c). lra.
    - pose proof (mono_from0 (fun z => z - sin z) (fun z => 1 - cos z) y Y) as M. cbv beta in M. rewrite sin_0 in M.
      assert (0 - 0 <= y - sin y); [|lra]. apply M.
      + intros c. apply derivable_pt_lim_minus; [apply derivable_pt_lim_id|apply derivable_pt_lim_sin].
      + intros c _. pose proof (COS_bound c). lra. }
  destruct (Rle_lt_dec 0 x) as [X|X].
  - rewrite (Rabs_right x) by lra. auto.
  - rewrite (Rabs_left x) by lra. rewrite <- Rabs_Ropp, <- sin_neg. apply H. lra.
Qed.
Lemma sin_lip a b : Rabs (sin a - sin b) <= Rabs (a - b).
Proof.
  assert (H : forall m d, Rabs (sin (m + d) - sin (m - d)) <= Rabs (2 * d)).
  { intros m d. rewrite sin_plus, sin_minus.
    replace (sin m * cos d + cos m * sin d - (sin m * cos d - cos m * sin d)) with (cos m * (2 * sin d)) by ring.
    rewrite !Rabs_mult. pose proof (abs_sin_le d). pose proof (COS_bound m). assert (Rabs (cos m) <= 1) by (apply Rabs_le; lra).
    pose proof (Rabs_pos (sin d)). rewrite (Rabs_right 2) by lra. pose proof (Rabs_pos (cos m)).
    set (c := Rabs (cos m)) in *. set (u := Rabs (sin d)) in *. set (v := Rabs d) in *. clearbody c u v. nra. }
  specialize (H ((a + b) / 2) ((a - b) / 2)). replace ((a + b) / 2 + (a - b) / 2) with a in H by field. replace ((a + b) / 2 - (a - b) / 2) with b in H by field.
  replace (2 * ((a - b) / 2)) with (a - b) in H by field. exact H.
Qed.
Lemma cos_lip a b : Rabs (cos a - cos b) <= Rabs (a - b).
Proof. rewrite <- !sin_shift. eapply Rle_trans; [apply sin_lip|]. rewrite <- Rabs_Ropp. apply Req_le. f_equal. ring. Qed.
(** The remainder of the tangent at [b] *)
Lemma sin_taylor b x : Rabs (sin b - sin (b - x) - x * cos b) <= x * x / 2.
Proof.
  assert (forall c y, 0 <= y -> Rabs (sin c - sin (c - y) - y * cos c) <= y * y / 2) as H.
  { intros c y Y.
    assert (D : forall z, derivable_pt_lim (fun z => sin c - sin (c - z) - z * cos c) z (cos (c - z) - cos c)).
    { intros z.
      assert (derivable_pt_lim (fun z => c - z) z (-1)) as D1.
      { replace (-1) with (0 - 1) by ring. apply derivable_pt_lim_minus; [apply derivable_pt_lim_const|apply derivable_pt_lim_id]. }
      pose proof (derivable_pt_lim_comp (fun z => c - z) sin z _ _ D1 (derivable_pt_lim_sin (c - z))) as D2.
      assert (derivable_pt_lim (fun z => z * cos c) z (cos c)) as D3.
      { replace (cos c) with (1 * cos c + z * 0) at 1 by ring. apply (derivable_pt_lim_mult (fun z => z) (fun _ => cos c)); [apply derivable_pt_lim_id|apply derivable_pt_lim_const]. }
      replace (cos (c - z) - cos c) with (0 - cos (c - z) * -1 - cos c) by ring.
      apply (derivable_pt_lim_minus (fun z => sin c - sin (c - z)) (fun z => z * cos c)); [|exact D3].
      apply (derivable_pt_lim_minus (fun _ => sin c) (fun z => sin (c - z))); [apply derivable_pt_lim_const|exact D2]. }
    assert (Q : forall z, derivable_pt_lim (fun z => z * z / 2) z z).
    { intros z. replace z with ((1 * z + z * 1) * / 2 + (z * z) * 0) at 2 by field.
      apply (derivable_pt_lim_mult (fun z => z * z) (fun _ => / 2)); [|apply derivable_pt_lim_const].
      apply (derivable_pt_lim_mult (fun z => z) (fun z => z)); apply derivable_pt_lim_id. }
    assert (B : forall z, 0 <= z -> - z <= cos (c - z) - cos c <= z).
    { intros z Z. pose proof (cos_lip (c - z) c) as L. replace (c - z - c) with (- z) in L by ring. rewrite Rabs_Ropp, (Rabs_right z) in L by lra. pose proof (Rle_abs (cos (c - z) - cos c)). pose proof (Rle_abs (- (cos (c - z) - cos c))) as L2. rewrite Rabs_Ropp in L2. lra. }
    apply Rabs_le. split.
    - pose proof (mono_from0 (fun z => z * z / 2 + (sin c - sin (c - z) - z * cos c)) (fun z => z + (cos (c - z) - cos c)) y Y) as M. cbv beta in M.
      rewrite Rminus_0_r in M. assert (0 * 0 / 2 + (sin c - sin c - 0 * cos c) <= y * y / 2 + (sin c - sin (c - y) - y * cos c)); [|lra].
      apply M; [intros z; apply derivable_pt_lim_plus; auto|intros z Z; specialize (B z (proj1 Z)); lra].
    - pose proof (mono_from0 (fun z => z * z / 2 - (sin c - sin (c - z) - z * cos c)) (fun z => z - (cos (c - z) - cos c)) y Y) as M. cbv beta in M.
      rewrite Rminus_0_r in M. assert (0 * 0 / 2 - (sin c - sin c - 0 * cos c) <= y * y / 2 - (sin c - sin (c - y) - y * cos c)); [|lra].
      apply M; [intros z; apply derivable_pt_lim_minus; auto|intros z Z; specialize (B z (proj1 Z)); lra]. }
  destruct (Rle_lt_dec 0 x) as [X|X]; [auto|].
  specialize (H (- b) (- x) ltac:(lra)). replace (- b - - x) with (- (b - x)) in H by ring. rewrite !sin_neg, cos_neg in H.
  rewrite <- Rabs_Ropp. replace (- (sin b - sin (b - x) - x * cos b)) with (- sin b - - sin (b - x) - - x * cos b) by ring. replace (x * x) with (- x * - x) by ring. exact H.
Qed.

(** ** The solution *)
Lemma denominator e x : 0 <= e <= 1 / 2 -> 1 / 2 <= 1 - e * cos x.
Proof. intros He. pose proof (COS_bound x). nra. Qed.
Lemma kepler_lip e m1 m2 x1 x2 : 0 <= e <= 1 / 2 -> kepler e m1 x1 -> kepler e m2 x2 -> Rabs (x1 - x2) <= 2 * Rabs (m1 - m2).
Proof.
  intros He K1 K2. unfold kepler in *. pose proof (sin_lip x1 x2) as L.
  assert (x1 - x2 = (m1 - m2) + e * (sin x1 - sin x2)) as E by lra.
  assert (Rabs (x1 - x2) <= Rabs (m1 - m2) + e * Rabs (sin x1 - sin x2)) as B.
  { rewrite E at 1. eapply Rle_trans; [apply Rabs_triang|]. rewrite Rabs_mult, (Rabs_right e) by lra. lra. }
  pose proof (Rabs_pos (x1 - x2)). pose proof (Rabs_pos (sin x1 - sin x2)). nra.
Qed.
Lemma kepler_unique e m x y : 0 <= e <= 1 / 2 -> kepler e m x -> kepler e m y -> x = y.
Proof.
  intros He K1 K2. pose proof (kepler_lip e m m x y He K1 K2) as L. replace (m - m) with 0 in L by ring. rewrite Rabs_R0 in L.
  pose proof (Rabs_pos (x - y)). assert (Rabs (x - y) = 0) as Z by lra.
  destruct (Req_dec (x - y) 0) as [E|E]; [lra|]. apply Rabs_no_R0 in E. contradiction.
Qed.
Lemma kepler_exists e m : 0 <= e <= 1 / 2 -> exists x, kepler e m x.
Proof.
  intros He.
  assert (C : continuity (fun x => x - e * sin x - m)).
  { apply continuity_minus; [|apply continuity_const; intros ? ?; reflexivity].
    apply (continuity_minus (fun x => x) (fun x => e * sin x)); [apply derivable_continuous, derivable_id|].
    apply (continuity_mult (fun _ => e) sin); [apply continuity_const; intros ? ?; reflexivity|apply continuity_sin]. }
  destruct (IVT (fun x => x - e * sin x - m) (m - 1) (m + 1) C) as (x & _ & E).
  - lra.
  - pose proof (SIN_bound (m - 1)). nra.
  - pose proof (SIN_bound (m + 1)). nra.
  - exists x. unfold kepler. cbv beta in E. lra.
Qed.

(** ** The iteration *)
Lemma newton_some e m x : 0 <= e <= 1 / 2 -> newton e m x = Some (x - (x - e * sin x - m) / (1 - e * cos x)).
Proof. intros He. unfold newton, div. pose proof (denominator e x He). destruct (Req_EM_T _ _); [lra|reflexivity]. Qed.
Lemma newton_square e m s x y : 0 <= e <= 1 / 2 -> kepler e m s -> newton e m x = Some y -> Rabs (y - s) <= (x - s) * (x - s) / 2.
Proof.
  intros He K H. rewrite newton_some in H by exact He. injection H as <-. unfold kepler in K. pose proof (denominator e x He) as D.
  pose proof (sin_taylor x (x - s)) as T. replace (x - (x - s)) with s in T by ring.
  replace (x - (x - e * sin x - m) / (1 - e * cos x) - s) with (e * (sin x - sin s - (x - s) * cos x) / (1 - e * cos x)) by (rewrite <- K; field; lra).
  unfold Rdiv. rewrite !Rabs_mult, (Rabs_right e) by lra. rewrite (Rabs_right (/ (1 - e * cos x))) by (apply Rle_ge; left; apply Rinv_0_lt_compat; lra).
  apply Rmult_le_reg_r with (1 - e * cos x); [lra|]. rewrite Rmult_assoc, Rinv_l, Rmult_1_r by lra.
  set (q := (x - s) * (x - s)) in *. assert (0 <= q) by apply Rle_0_sqr. set (z := Rabs _) in *. assert (0 <= z) by apply Rabs_pos. clearbody z q. nra.
Qed.
Lemma start_close e m s : 0 <= e <= 1 / 2 -> kepler e m s -> Rabs (m - s) <= 1 / 2.
Proof.
  intros He K. unfold kepler in K. replace (m - s) with (- (e * sin s)) by lra. rewrite Rabs_Ropp, Rabs_mult, (Rabs_right e) by lra.
  pose proof (SIN_bound s). assert (Rabs (sin s) <= 1) by (apply Rabs_le; lra). pose proof (Rabs_pos (sin s)). nra.
Qed.
Lemma square_abs x b : Rabs x <= b -> x * x <= b * b.
Proof. intros H. pose proof (Rabs_pos x). replace (x * x) with (Rabs x * Rabs x) by (rewrite <- Rabs_mult; apply Rabs_right, Rle_ge, Rle_0_sqr). nra. Qed.

(** What a stop means *)
Lemma stop_close e m s x y : 0 <= e <= 1 / 2 -> kepler e m s -> Rabs (x - s) <= 1 / 2 -> newton e m x = Some y -> Rabs (y - x) <= tolerance -> Rabs (y - s) <= 1 / 10 ^ 25.
Proof.
  intros He K B N T. pose proof (newton_square e m s x y He K N) as Q. unfold tolerance in T.
  assert (Rabs (x - s) <= Rabs (y - x) + Rabs (y - s)) as Tr.
  { replace (x - s) with (- (y - x) + (y - s)) by ring. eapply Rle_trans; [apply Rabs_triang|]. rewrite Rabs_Ropp. lra. }
  set (d := Rabs (x - s)) in *. assert ((x - s) * (x - s) = d * d) as E by (unfold d; rewrite <- Rabs_mult; symmetry; apply Rabs_right, Rle_ge, Rle_0_sqr).
  rewrite E in Q. assert (0 <= d) by apply Rabs_pos. set (f := Rabs (y - s)) in *. set (g := Rabs (y - x)) in *. clearbody d f g. clear - H B Q Tr T.
  assert (d <= 4 / 3 * (1 / 10 ^ 13)) by nra. assert (d * d <= (4 / 3 * (1 / 10 ^ 13)) * (4 / 3 * (1 / 10 ^ 13))) by nra. lra.
Qed.
Lemma settles : forall k e m s x, 0 <= e <= 1 / 2 -> kepler e m s -> Rabs (x - s) <= (1 / 2) -> 
  (exists j, (j <= k)%nat /\ exists y, (forall n, (j <= n)%nat -> iterate n e m x = Some y) /\ Rabs (y - s) <= 1 / 10 ^ 25) \/
  exists y, (forall n, (k <= n)%nat -> iterate n e m x = iterate (n - k) e m y) /\ Rabs (y - s) <= 1 / 2 * (1 / 4) ^ (2 ^ k - 1).
Proof.
  intros k e m s x He K. revert x. induction k as [| k IH]; intros x B.
  - right. exists x. split; [intros n _; f_equal; lia|]. cbn. lra.
  - destruct (IH x B) as [(j & Hj & y & Hy & Cy)|(y & Hy & Cy)].
    + left. exists j. split; [lia|]. exists y. auto.
    + pose proof (newton_some e m y He) as N. set (z := y - (y - e * sin y - m) / (1 - e * cos y)) in *. clearbody z.
      assert (Hb : Rabs (y - s) <= 1 / 2).
      { eapply Rle_trans; [exact Cy|]. assert ((1 / 4) ^ (2 ^ k - 1) <= 1 ^ (2 ^ k - 1)) by (apply pow_incr; lra). rewrite pow1 in H. lra. }
      destruct (Rlt_dec tolerance (Rabs (z - y))) as [L|L].
      * right. exists z. split.
        -- intros n Hn. rewrite (Hy n ltac:(lia)). replace (n - k)%nat with (S (n - S k)) by lia. cbn [iterate]. rewrite N. cbn [bind]. destruct (Rlt_dec _ _); [reflexivity|contradiction].
        -- pose proof (newton_square e m s y z He K N) as Q. apply square_abs in Cy.
           replace (2 ^ S k - 1)%nat with ((2 ^ k - 1) + (2 ^ k - 1) + 1)%nat by (cbn [Nat.pow]; pose proof (Nat.pow_nonzero 2 k ltac:(lia)); lia).
           rewrite !pow_add, pow_1. set (c := (1 / 4) ^ (2 ^ k - 1)) in *. assert (0 <= c) by (apply pow_le; lra). clearbody c. nra.
      * left. exists (S k). split; [lia|]. exists z. split.
        -- intros n Hn. rewrite (Hy n ltac:(lia)). replace (n - k)%nat with (S (n - S k)) by lia. cbn [iterate]. rewrite N. cbn [bind]. destruct (Rlt_dec _ _); [contradiction|reflexivity].
        -- apply (stop_close e m s y z); auto. lra.
Qed.
Lemma eccentric_ok e m : 0 <= e <= 1 / 2 -> exists s y, kepler e m s /\ eccentric e m = Some y /\ Rabs (y - s) <= 1 / 10 ^ 25 /\ forall n, (7 <= n)%nat -> iterate n e m m = Some y.
Proof.
  intros He. destruct (kepler_exists e m He) as [s K]. exists s.
  assert (exists y, (forall n, (7 <= n)%nat -> iterate n e m m = Some y) /\ Rabs (y - s) <= 1 / 10 ^ 25) as (y & Hy & Cy).
  { destruct (settles 6 e m s m He K (start_close e m s He K)) as [(j & Hj & y & Hy & Cy)|(y & Hy & Cy)].
    - exists y. split; [intros n Hn; apply Hy; lia|exact Cy].
    - pose proof (newton_some e m y He) as N. set (z := y - (y - e * sin y - m) / (1 - e * cos y)) in *. clearbody z.
      assert (Cy' : Rabs (y - s) <= 1 / 10 ^ 20).
      { eapply Rle_trans; [exact Cy|]. replace (2 ^ 6 - 1)%nat with 63%nat by reflexivity. lra. }
      pose proof (newton_square e m s y z He K N) as Q. apply square_abs in Cy'.
      exists z. split.
      + intros n Hn. rewrite (Hy n ltac:(lia)). replace (n - 6)%nat with (S (n - 7)) by lia. cbn [iterate]. rewrite N. cbn [bind].
        destruct (Rlt_dec _ _) as [L|L]; [|reflexivity]. exfalso. unfold tolerance in L.
        assert (Rabs (z - y) <= Rabs (z - s) + Rabs (y - s)).
        { replace (z - y) with ((z - s) + - (y - s)) by ring. eapply Rle_trans; [apply Rabs_triang|]. rewrite Rabs_Ropp. lra. }
        assert (Rabs (y - s) <= 1 / 10 ^ 20) by (eapply Rle_trans; [exact Cy|]; replace (2 ^ 6 - 1)%nat with 63%nat by reflexivity; lra).
        set (a := Rabs (z - s)) in *. set (b := Rabs (y - s)) in *. set (q := (y - s) * (y - s)) in *. clearbody a b q. lra.
      + set (a := Rabs (z - s)) in *. set (q := (y - s) * (y - s)) in *. clearbody a q. lra. }
  exists y. split; [exact K|]. split; [exact (Hy 30%nat ltac:(lia))|]. split; [exact Cy|exact Hy].
Qed.
