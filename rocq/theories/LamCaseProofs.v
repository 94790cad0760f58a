(** Particular cases of the LAMBDA method: where it fails, and cases that meet the hypotheses *)
From Coq Require Import Reals ZArith List Lra Lia Psatz Arith.
From Verif Require Import LinSpec LinProofs LamModel LamSpec LamProofs LamTermProofs LamSearchProofs LamBestProofs.
Import ListNotations.
Local Open Scope R_scope.

(** ** A variance of 1e-20: all candidates but one are cut off *)
Definition far_D : lvec := fun _ => 1e-20.
Definition far_a : lvec := fun _ => 0.

Lemma rnd_0 : rnd 0 = 0%Z.
Proof. exact (rnd_IZR 0). Qed.

Lemma lid_unit n : unit_lower n lid.
Proof.
  split.
  - intros i Hi. unfold lid. rewrite Nat.eqb_refl. reflexivity.
  - intros i j Hi. unfold lid. destruct (Nat.eqb_spec i j); [lia|reflexivity].
Qed.

Definition far_step : Z := first_step (0 - 0).
Lemma far_step_1 : far_step = 1%Z.
Proof. unfold far_step, first_step, sgn. destruct (Rle_dec 0 (0 - 0)) as [_|W]; [reflexivity|exfalso; apply W; lra]. Qed.
Lemma far_init : search_init 1 2 far_a =
  Srch 0 (0 - 0) (fun _ => 0) (set1 (fun _ => 0) 0 0) (set1 (fun _ => 0%Z) 0 0%Z) (set1 (fun _ => 0%Z) 0 1%Z)
       (fun _ _ => 0) (fun _ _ => 0%Z) (fun _ => 0) 0 1 1e18.
Proof.
  unfold search_init. cbv zeta. cbn [Nat.sub]. change (far_a O) with 0. rewrite rnd_0.
  change (first_step (0 - 0)) with far_step. rewrite far_step_1. reflexivity.
Qed.
Definition far_1 : srch :=
  Srch 0 (0 - 1) (fun _ => 0) (set1 (fun _ => 0) 0 0) (set1 (set1 (fun _ => 0%Z) 0 0%Z) 0 1%Z)
       (set1 (set1 (fun _ => 0%Z) 0 1%Z) 0 (-2)%Z)
       (fun _ _ => 0) (set1 (fun _ _ => 0%Z) 0 (set1 (fun _ => 0%Z) 0 0%Z)) (set1 (fun _ => 0) 0 (0 + (0 - 0) * (0 - 0) / 1e-20)) 1 1 1e18.
Lemma far_first : search_step 1 2 far_a lid far_D (search_init 1 2 far_a) = Some far_1.
Proof.
  rewrite far_init. unfold search_step. cbn [sk sdist sleft schi scnt Nat.sub Nat.ltb Nat.leb]. cbv zeta.
  change (far_D O) with 1e-20. destruct (Rlt_dec _ _) as [H|H]; [reflexivity|exfalso; apply H; lra].
Qed.
Lemma far_second : search_step 1 2 far_a lid far_D far_1 = None.
Proof.
  unfold search_step, far_1. cbn [sk sdist sleft schi scnt Nat.sub]. cbv zeta.
  change (far_D O) with 1e-20. destruct (Rlt_dec _ _) as [H|H]; [exfalso; lra|reflexivity].
Qed.
Lemma far_search : exists zs ds, search 2 1 2 far_a lid far_D = Done (zs, ds) /\ forall c, (c < 2)%nat -> zs c O = 0%Z.
Proof.
  unfold search. cbn [Nat.eqb orb search_loop]. rewrite far_first, far_second. cbn [bind]. cbv zeta.
  eexists. eexists. split; [reflexivity|]. intros c Hc. rewrite permuted_pick by exact Hc.
  unfold far_1. cbn [scols]. unfold set1. destruct (Nat.eqb _ 0); reflexivity.
Qed.
Lemma far_not_best Q zs ds : (forall c, (c < 2)%nat -> zs c O = 0%Z) -> ~ best 1 Q far_a 2 zs ds.
Proof.
  intros H (_ & B2 & _). destruct (B2 O 1%nat ltac:(lia)) as [(i & Hi & Hne) _].
  assert (i = O) by lia. subst i. apply Hne. rewrite !H by lia. reflexivity.
Qed.

(** ** One candidate, and ambiguities beyond the range of int *)
Definition one_Q : lmat := lid.
Lemma lid_sym n : lsym n lid.
Proof. intros i j _ _. unfold lid. rewrite Nat.eqb_sym. reflexivity. Qed.
Lemma lid_pos n : lposdef n lid.
Proof.
  intros x (i & Hi & Hx). unfold lquad, ldot.
  rewrite (sum_ext n _ (fun j => x j * x j)) by (intros j Hj; rewrite (lmv_id n x j Hj); reflexivity).
  apply (sum_pos n _ i); [intros j Hj; nra|exact Hi|nra].
Qed.
Lemma trunc_0 : trunc 0 = 0%Z.
Proof. unfold trunc. destruct (Rle_dec 0 0) as [_|W]; [exact (Int_part_IZR 0)|exfalso; apply W; lra]. Qed.
Lemma one_candidate n inv a Q rounds x : lambda rounds n 1 inv a Q <> Done x.
Proof.
  unfold lambda, bind. destruct (modf n a) as [| | |ia]; try discriminate.
  destruct (reduction rounds n Q (snd ia)) as [| | |s]; try discriminate.
  destruct (search rounds n 1 (ra s) (rL s) (rD s)) as [| | |cn]; discriminate.
Qed.
Lemma one_candidate_undefined n inv a Q : (0 < n)%nat -> lsym n Q -> lposdef n Q -> (forall i, (i < n)%nat -> int_range (a i)) ->
  exists rounds, lambda rounds n 1 inv a Q = Undefined.
Proof.
  intros Hn Hs Hp Hr. unfold lambda.
  assert (Em : modf n a = Done (fun i => trunc (a i), fun i => a i - IZR (trunc (a i)))).
  { unfold modf. assert (F : forallb (fun i => int_range_b (a i)) (seq 0 n) = true).
    { apply forallb_forall. intros i Hi. apply in_seq in Hi. destruct (Hr i ltac:(lia)) as [H1 H2].
      unfold int_range_b. apply andb_true_intro. split; [apply Z.leb_le; exact H1|apply Z.ltb_lt; exact H2]. }
    rewrite F. reflexivity. }
  rewrite Em. cbn [bind snd].
  destruct (reduction_ends n Q (fun i => a i - IZR (trunc (a i))) Hs Hp) as (r1 & s & E1).
  pose proof (reduction_inv n Q _ r1 s Hs E1) as HI.
  destruct (search_ends n 1 (ra s) (rL s) (rD s) Hn ltac:(lia) (ri_low _ _ _ _ HI) (ri_pos _ _ _ _ HI)) as (r2 & zs & ds & E2).
  exists (Nat.max r1 r2). rewrite (reduction_more _ _ _ r1 (Nat.max r1 r2) s ltac:(lia) E1). cbn [bind].
  rewrite (search_more _ _ _ _ _ r2 (Nat.max r1 r2) _ ltac:(lia) E2). reflexivity.
Qed.
Lemma big_ambiguity rounds n nc inv a Q i : (i < n)%nat -> ~ int_range (a i) -> lambda rounds n nc inv a Q = Undefined.
Proof.
  intros Hi Hr. unfold lambda, modf. destruct (forallb _ _) eqn:F; [|reflexivity].
  exfalso. apply Hr. rewrite forallb_forall in F. specialize (F i). cbv beta in F.
  assert (Hin : In i (seq 0 n)) by (apply in_seq; lia). specialize (F Hin). unfold int_range_b in F.
  apply andb_prop in F. destruct F as [F1 F2]. split; [apply Z.leb_le; exact F1|apply Z.ltb_lt; exact F2].
Qed.
Lemma trunc_IZR z : trunc (IZR z) = z.
Proof.
  unfold trunc. destruct (Rle_dec 0 (IZR z)); [apply Int_part_IZR|]. rewrite <- opp_IZR, Int_part_IZR. lia.
Qed.
Lemma big_not : ~ int_range 2147483648.
Proof. unfold int_range. rewrite trunc_IZR. lia. Qed.

(** ** The second best distance is positive *)
Lemma distance_zero n Q a z d : lposdef n Q -> distance n Q a z d -> 0 <= d /\ (d = 0 -> forall i, (i < n)%nat -> IZR (z i) = a i).
Proof.
  intros Hp (y & Hy & ->).
  assert (E : ldot n (fun i => IZR (z i) - a i) y = lquad n Q y).
  { unfold lquad. rewrite ldot_comm. apply ldot_ext; [intros i Hi; reflexivity|]. intros i Hi. symmetry. apply Hy, Hi. }
  rewrite E.
  assert (D : (exists i, (i < n)%nat /\ y i <> 0) \/ forall i, (i < n)%nat -> y i = 0).
  { clear. induction n as [|n IH]; [right; intros; lia|]. destruct IH as [(i & Hi & H)|H]; [left; exists i; split; [lia|exact H]|].
    destruct (Req_dec (y n) 0) as [H0|H0]; [|left; exists n; split; [lia|exact H0]].
    right. intros i Hi. destruct (Nat.eq_dec i n) as [->|Hne]; [exact H0|apply H; lia]. }
  destruct D as [D|D]; [pose proof (Hp y D); split; [lra|intros; lra]|].
  assert (Z0 : forall i, (i < n)%nat -> lmv n Q y i = 0).
  { intros i Hi. unfold lmv. apply sum_zero. intros j Hj. rewrite (D j Hj). lra. }
  split.
  - right. symmetry. unfold lquad, ldot. apply sum_zero. intros i Hi. rewrite (D i Hi). lra.
  - intros _ i Hi. pose proof (Hy i Hi) as E1. cbv beta in E1. rewrite (Z0 i Hi) in E1. lra.
Qed.
Lemma best_ratio n Q a nc zs ds : lposdef n Q -> (1 < nc)%nat -> best n Q a nc zs ds -> 0 <= ds O /\ 0 < ds 1%nat /\ ds O <= ds 1%nat.
Proof.
  intros Hp Hnc (B1 & B2 & _).
  destruct (distance_zero n Q a _ _ Hp (B1 O ltac:(lia))) as [P0 Z0].
  destruct (distance_zero n Q a _ _ Hp (B1 1%nat ltac:(lia))) as [P1 Z1].
  destruct (B2 O 1%nat ltac:(lia)) as [(i & Hi & Hne) Hle].
  split; [exact P0|]. split; [|exact Hle]. destruct (Req_dec (ds 1%nat) 0) as [E|E]; [|lra].
  exfalso. apply Hne. apply eq_IZR. rewrite (Z1 E i Hi). apply Z0; [lra|exact Hi].
Qed.

(** ** A case that meets the hypotheses: two correlated ambiguities *)
Definition x_Q : lmat := fun i j => if Nat.eqb i j then 2 else 1.
Definition x_a : lvec := fun i => if Nat.eqb i 0 then 33 / 10 else -71 / 5.
Definition x_inv (A : lmat) : lmat := fun i j =>
  let det := A 0%nat 0%nat * A 1%nat 1%nat - A 0%nat 1%nat * A 1%nat 0%nat in
  (if Nat.eqb i 0 then if Nat.eqb j 0 then A 1%nat 1%nat else - A 0%nat 1%nat
   else if Nat.eqb j 0 then - A 1%nat 0%nat else A 0%nat 0%nat) / det.
Lemma x_sym : lsym 2 x_Q.
Proof. intros i j _ _. unfold x_Q. rewrite Nat.eqb_sym. reflexivity. Qed.
Lemma x_pos : lposdef 2 x_Q.
Proof.
  intros x (i & Hi & Hx). unfold lquad, ldot, lmv, x_Q. cbn [sum Nat.eqb].
  assert (x 0%nat <> 0 \/ x 1%nat <> 0) by (destruct i as [|[|i]]; [left|right|lia]; exact Hx).
  set (p := x 0%nat) in *. set (q := x 1%nat) in *. clearbody p q. clear - H.
  assert (0 < p * p + q * q) by (destruct H; nra). nra.
Qed.
Lemma x_inverts : inverts 2 x_inv.
Proof.
  intros A B HAB _.
  pose proof (HAB 0%nat 0%nat ltac:(lia) ltac:(lia)) as E00. pose proof (HAB 0%nat 1%nat ltac:(lia) ltac:(lia)) as E01.
  pose proof (HAB 1%nat 0%nat ltac:(lia) ltac:(lia)) as E10. pose proof (HAB 1%nat 1%nat ltac:(lia) ltac:(lia)) as E11.
  unfold lmm, lid in E00, E01, E10, E11. cbn [sum Nat.eqb] in E00, E01, E10, E11.
  unfold x_inv, lmm. intros i j Hi Hj. cbn [sum Nat.eqb].
  set (a := A 0%nat 0%nat) in *. set (b := A 0%nat 1%nat) in *. set (c := A 1%nat 0%nat) in *. set (d := A 1%nat 1%nat) in *.
  set (e := B 0%nat 0%nat) in *. set (f := B 0%nat 1%nat) in *. set (g := B 1%nat 0%nat) in *. set (h := B 1%nat 1%nat) in *.
  assert (Hdet : a * d - b * c <> 0).
  { intros H0. assert (E : (0 + a * e + b * g) * (0 + c * f + d * h) - (0 + a * f + b * h) * (0 + c * e + d * g) = (a * d - b * c) * (e * h - f * g)) by ring.
    rewrite E00, E01, E10, E11, H0 in E. lra. }
  destruct i as [|[|i]], j as [|[|j]]; try lia; unfold lid; cbn [Nat.eqb]; unfold a, b, c, d in *; field; exact Hdet.
Qed.
Lemma x_distance z : distance 2 x_Q x_a z
  (let r := IZR (z 0%nat) - x_a 0%nat in let s := IZR (z 1%nat) - x_a 1%nat in (2 * r * r - 2 * r * s + 2 * s * s) / 3).
Proof.
  cbv zeta. set (r := IZR (z 0%nat) - x_a 0%nat). set (s := IZR (z 1%nat) - x_a 1%nat).
  exists (fun i => if Nat.eqb i 0 then (2 * r - s) / 3 else (2 * s - r) / 3). split.
  - intros i Hi. unfold lmv, x_Q. cbn [sum Nat.eqb]. destruct i as [|[|i]]; try lia; cbn [Nat.eqb]; fold r s; field.
  - unfold ldot. cbn [sum Nat.eqb]. fold r s. field.
Qed.
Definition x_ws (c i : nat) : Z := if Nat.eqb i 0 then 3%Z else (-14 - Z.of_nat c)%Z.
Lemma x_within : within 2 x_Q x_a 3 1e18.
Proof.
  exists x_ws. split.
  - intros c Hc. eexists. split; [apply x_distance|]. cbv zeta. unfold x_ws, x_a. cbn [Nat.eqb].
    destruct c as [|[|[|c]]]; try lia; cbn [Z.of_nat Pos.of_succ_nat Pos.succ Z.sub Z.add Z.opp Z.pos_sub Pos.add Pos.succ]; lra.
  - intros c c' Hc. exists 1%nat. split; [lia|]. unfold x_ws. cbn [Nat.eqb]. lia.
Qed.
Lemma x_range i : (i < 2)%nat -> int_range (x_a i).
Proof.
  intros Hi. unfold int_range, trunc, x_a. destruct i as [|[|i]]; try lia; cbn [Nat.eqb]; destruct (Rle_dec 0 _); try lra.
  - rewrite (Int_part_between (33 / 10) 3) by lra. lia.
  - rewrite (Int_part_between (- (-71 / 5)) 14) by lra. lia.
Qed.
