(** Proofs about when sensors sample. *)
From Coq Require Import ZArith Reals List Lra Lia Bool.
From Flocq Require Import Core.Zaux Core.Raux Core.Defs Core.Generic_fmt Core.FLT Core.Float_prop Relative IEEE754.BinarySingleNaN.
From Verif Require Import UtcTimeModel UtcTimeSpec UtcTimeProofs Float64 QuantizedModel QuantizedProofs PidProofs SatCloseProofs ImuSpec SimModel SimSpec.
Import ListNotations.
Local Open Scope R_scope.

Definition u : R := bpow radix2 (-53).
Lemma u_val : u = / 9007199254740992.
Proof. unfold u. cbn. reflexivity. Qed.
Lemma rnd_rel x : bpow radix2 (-1022) <= x -> x * (1 - u) <= rnd x <= x * (1 + u).
Proof.
  intros H. pose proof (bpow_gt_0 radix2 (-1022)) as B0.
  assert (E : Rabs (rnd x - x) <= / 2 * bpow radix2 (- prec + 1) * Rabs x).
  { apply (relative_error_N_FLT radix2 (SpecFloat.emin prec emax) prec); [reflexivity|]. rewrite Rabs_pos_eq by lra. eapply Rle_trans; [|exact H]. apply bpow_le. unfold SpecFloat.emin, prec, emax. lia. }
  rewrite (Rabs_pos_eq x) in E by lra.
  assert (B : / 2 * bpow radix2 (- prec + 1) = u). { change (/ 2) with (bpow radix2 (-1)). rewrite <- bpow_plus. reflexivity. }
  rewrite B in E. unfold Rabs in E. destruct (Rcase_abs _); lra.
Qed.
Lemma rnd_rel0 x : x = 0 \/ bpow radix2 (-1022) <= x -> x * (1 - u) <= rnd x <= x * (1 + u).
Proof. intros [-> |H]; [rewrite round_0 by apply valid_rnd_round_mode; lra|exact (rnd_rel x H)]. Qed.
Lemma small_bpow x : / 10 ^ 12 <= x -> bpow radix2 (-1022) <= x.
Proof. intros H. eapply Rle_trans; [|exact H]. eapply Rle_trans; [apply (bpow_le radix2 (-1022) (-50)); lia|]. change (bpow radix2 (-50)) with (/ 1125899906842624). lra. Qed.
Lemma u_pos : 0 < u <= / 10 ^ 15.
Proof. rewrite u_val. split; [lra|]. lra. Qed.
Lemma nano_val : / 10 ^ 9 * (1 - u) <= val c_1em9 <= / 10 ^ 9 * (1 + u).
Proof.
  rewrite val_lit_1em9. rewrite u_val. change (bpow radix2 (-82)) with (/ IZR (2 ^ 82)). change (2 ^ 82)%Z with 4835703278458516698824704%Z. split; lra.
Qed.
(** Up to four units in the last place *)
Definition near (x y : R) : Prop := y * (1 - 4 * u) <= x <= y * (1 + 4 * u).
Lemma near_seconds d : normal d -> (0 <= sec d < 2 ^ 63)%Z -> finite (toSec d) = true /\ near (val (toSec d)) (IZR (instant d) / 10 ^ 9).
Proof.
  intros N S. destruct (toSec_ok d) as [F V]; [unfold in64; lia|exact N|]. split; [exact F|]. rewrite V. clear V F.
  destruct (secF_ok (nsec d)) as (_ & Vn & _); [unfold normal in N; lia|]. rewrite Vn, (val_of_Z_exact (nsec d)) by (unfold normal in N; lia).
  rewrite (proj1 (of_Z_ok (sec d) ltac:(lia))). unfold instant. rewrite plus_IZR, mult_IZR. unfold normal in N.
  pose proof nano_val as C. pose proof u_pos as U. set (c := val c_1em9) in *. clearbody c.
  assert (HS : IZR (sec d) = 0 \/ 1 <= IZR (sec d)). { destruct (Z.eq_dec (sec d) 0) as [E|E]; [left; rewrite E; reflexivity|right; apply IZR_le; lia]. }
  assert (HN : IZR (nsec d) = 0 \/ 1 <= IZR (nsec d)). { destruct (Z.eq_dec (nsec d) 0) as [E|E]; [left; rewrite E; reflexivity|right; apply IZR_le; lia]. }
  set (s := IZR (sec d)) in *. set (n := IZR (nsec d)) in *. clearbody s n. clear - C U HS HN.
  assert (S1 : s * (1 - u) <= rnd s <= s * (1 + u)). { apply rnd_rel0. destruct HS as [E|E]; [left; exact E|right; apply small_bpow; lra]. }
  assert (C0 : / 10 ^ 10 <= c). { eapply Rle_trans; [|apply C]. lra. }
  assert (N0 : 0 <= n) by lra. assert (S0 : 0 <= s) by lra.
  assert (N1 : n * c * (1 - u) <= rnd (n * c) <= n * c * (1 + u)). { apply rnd_rel0. destruct HN as [E|E]; [left; rewrite E; ring|right; apply small_bpow; nra]. }
  assert (N2 : n * / 10 ^ 9 * ((1 - u) * (1 - u)) <= rnd (n * c) <= n * / 10 ^ 9 * ((1 + u) * (1 + u))).
  { assert (A : n * (/ 10 ^ 9 * (1 - u)) <= n * c <= n * (/ 10 ^ 9 * (1 + u))) by (split; apply Rmult_le_compat_l; lra).
    set (m := n * c) in *. clearbody m. set (r := rnd m) in *. clearbody r. clear - A N1 U.
    assert (A1 : n * (/ 10 ^ 9 * (1 - u)) * (1 - u) <= m * (1 - u)) by (apply Rmult_le_compat_r; lra).
    assert (A2 : m * (1 + u) <= n * (/ 10 ^ 9 * (1 + u)) * (1 + u)) by (apply Rmult_le_compat_r; lra). lra. }
  set (x := (s * 1000000000 + n) / 10 ^ 9). assert (X : x = s + n * / 10 ^ 9) by (unfold x; field). clearbody x. subst x.
  set (y := n * / 10 ^ 9) in *. assert (Y0 : 0 <= y) by (unfold y; lra).
  assert (Y1 : y = 0 \/ / 10 ^ 9 <= y) by (unfold y; destruct HN as [E|E]; [left; rewrite E; ring|right; lra]).
  assert (SN : (s + y) * ((1 - u) * (1 - u)) <= rnd s + rnd (n * c) <= (s + y) * ((1 + u) * (1 + u))).
  { split; rewrite Rmult_plus_distr_r; apply Rplus_le_compat; try apply N2.
    - eapply Rle_trans; [|apply S1]. apply Rmult_le_compat_l; [exact S0|]. clear - U. nra.
    - eapply Rle_trans; [apply S1|]. apply Rmult_le_compat_l; [exact S0|]. clear - U. nra. }
  set (z := rnd s + rnd (n * c)) in *. clearbody z.
  assert (Z : z * (1 - u) <= rnd z <= z * (1 + u)).
  { apply rnd_rel0. destruct HS as [E|E], Y1 as [E'|E']; [left; rewrite E, E' in SN; lra|right; apply small_bpow..].
    all: eapply Rle_trans; [|apply SN]; apply Rle_trans with (/ 10 ^ 9 * ((1 - u) * (1 - u))); [clear - U; nra|]; apply Rmult_le_compat_r; [clear - U; nra|lra]. }
  set (w := rnd z) in *. clearbody w. set (x := s + y) in *. assert (X0 : 0 <= x) by (unfold x; lra). clearbody x. clear - SN Z U X0. unfold near. split.
  - eapply Rle_trans; [|apply Z]. eapply Rle_trans; [|apply Rmult_le_compat_r; [lra|apply SN]]. rewrite Rmult_assoc. apply Rmult_le_compat_l; [exact X0|]. nra.
  - eapply Rle_trans; [apply Z|]. eapply Rle_trans; [apply Rmult_le_compat_r; [lra|apply SN]|]. rewrite Rmult_assoc. apply Rmult_le_compat_l; [exact X0|]. nra.
Qed.
(** A rate that a sensor may have, in Hz *)
Definition usual_rate (r : b64) : Prop := finite r = true /\ / 10 ^ 6 <= val r <= 10 ^ 6.
Lemma period r : usual_rate r -> finite (fdiv (of_Z 1) r) = true /\ / val r * (1 - u) <= val (fdiv (of_Z 1) r) <= / val r * (1 + u).
Proof.
  intros (F & A & B). assert (P : 0 < val r) by lra.
  assert (I : / 10 ^ 6 <= / val r <= 10 ^ 6). { split; [apply Rinv_le_contravar; lra|]. replace (10 ^ 6) with (/ / 10 ^ 6) by field. apply Rinv_le_contravar; lra. }
  assert (One : val (of_Z 1) = 1) by (apply (val_of_Z_exact 1); lia).
  destruct (fdiv_ok (of_Z 1) r 20) as [V Fi]; [lia|reflexivity|lra| |].
  - rewrite One. unfold Rdiv. rewrite Rmult_1_l, Rabs_pos_eq by lra. change (bpow radix2 20) with 1048576. lra.
  - split; [exact Fi|]. rewrite V, One. unfold Rdiv. rewrite Rmult_1_l. apply rnd_rel, small_bpow. lra.
Qed.
Lemma due_ok r a t : usual_rate r -> good_time a -> good_time t -> (instant a <= instant t)%Z -> exists b, due r a t = Some b /\
  if b then / val r * (1 - 8 * u) <= elapsed a t else elapsed a t < / val r * (1 + 8 * u).
Proof.
  intros Hr [Na Sa] [Nt St] O. destruct (sub_ok t a Nt Na) as (d & E & Nd & I); try (unfold in64; lia).
  assert (D : (0 <= sec d < 2 ^ 63)%Z). { unfold instant, normal in *. lia. }
  destruct (near_seconds d Nd D) as [Fd Vd]. destruct (period r Hr) as [Fp Vp]. rewrite I in Vd. fold (elapsed a t) in Vd.
  assert (X0 : 0 <= elapsed a t). { unfold elapsed. apply Rmult_le_pos; [apply IZR_le; lia|lra]. }
  assert (P0 : 0 < / val r) by (apply Rinv_0_lt_compat; destruct Hr as (_ & A & _); lra).
  unfold due, control_dt. rewrite E. cbn [UtcTimeModel.bind RotModel.bind]. eexists. split; [reflexivity|]. rewrite fle_ok by assumption.
  unfold near in Vd. pose proof u_pos as U. set (x := elapsed a t) in *. set (p := / val r) in *. set (v := val (toSec d)) in *. set (w := val (fdiv _ _)) in *. clearbody x p v w. clear - Vd Vp X0 P0 U.
  destruct (Rle_bool_spec w v) as [L|L].
  - assert (H : p * (1 - u) <= x * (1 + 4 * u)) by lra. apply (Rmult_le_reg_r (1 + 4 * u)); [lra|]. eapply Rle_trans; [|exact H]. rewrite Rmult_assoc. apply Rmult_le_compat_l; [lra|]. nra.
  - assert (H : x * (1 - 4 * u) < p * (1 + u)) by lra. apply (Rmult_lt_reg_r (1 - 4 * u)); [lra|]. eapply Rlt_le_trans; [exact H|]. rewrite Rmult_assoc. apply Rmult_le_compat_l; [lra|]. nra.
Qed.
Lemma latest_self a s t : (forall x, In x s -> (instant t <= instant x)%Z) -> (instant a <= instant t)%Z -> elapsed (latest a s t) t <= elapsed a t.
Proof.
  intros H O. unfold elapsed. apply Rmult_le_compat_r; [lra|]. apply IZR_le. revert a O. induction s as [|x s IH]; intros a O; cbn [latest]; [lia|].
  destruct (instant x <=? instant t)%Z eqn:E; [|lia]. apply Z.leb_le in E. pose proof (IH (fun y Hy => H y (or_intror Hy)) x E). pose proof (H x (or_introl eq_refl)). lia.
Qed.
Lemma in_order_ge l : forall a x, in_order a l -> In x l -> (instant a <= instant x)%Z.
Proof. induction l as [|t l IH]; intros a x H Hx; [destruct Hx|]. destruct H as (A & B & C). destruct Hx as [<-|Hx]; [exact A|]. pose proof (IH t x C Hx). lia. Qed.
Lemma latest_skip a x s t : (instant x <= instant t)%Z -> latest a (x :: s) t = latest x s t.
Proof. intros H. cbn [latest]. apply Z.leb_le in H. rewrite H. reflexivity. Qed.
Lemma in_order_skip a t l : (instant a <= instant t)%Z -> in_order t l -> in_order a l.
Proof. destruct l as [|x l]; [trivial|]. intros H (A & B & C). split; [lia|split; assumption]. Qed.
Lemma samples_ok r : usual_rate r -> forall l a, good_time a -> in_order a l -> exists s, samples r a l = Some s /\
  apart (/ val r * (1 - 8 * u)) a s /\ incl s l /\ forall t, In t l -> elapsed (latest a s t) t < / val r * (1 + 8 * u).
Proof.
  intros Hr. assert (P0 : 0 < / val r) by (apply Rinv_0_lt_compat; destruct Hr as (_ & A & _); lra).
  assert (PU : 0 < / val r * (1 + 8 * u)) by (pose proof u_pos; apply Rmult_lt_0_compat; lra).
  induction l as [|t l IH]; intros a Ga O; [exists []; repeat split; [intros x []|intros t []]|].
  destruct O as (Oa & Gt & Ol). destruct (due_ok r a t Hr Ga Gt Oa) as (b & E & H). cbn [samples]. rewrite E. cbn [RotModel.bind]. destruct b.
  - destruct (IH t Gt Ol) as (s & Es & Ap & Inc & La). rewrite Es. cbn [RotModel.bind]. exists (t :: s). split; [reflexivity|]. split; [split; assumption|].
    assert (Ge : forall x, In x s -> (instant t <= instant x)%Z) by (intros x Hx; apply (in_order_ge l t x Ol), Inc, Hx).
    split; [intros x [->|Hx]; [left; reflexivity|right; apply Inc; exact Hx]|]. intros x [<-|Hx].
    + rewrite latest_skip by lia. eapply Rle_lt_trans; [apply latest_self; [exact Ge|lia]|]. unfold elapsed. rewrite Z.sub_diag. lra.
    + rewrite latest_skip by (apply (in_order_ge l t x Ol Hx)). apply La. exact Hx.
  - destruct (IH a Ga (in_order_skip a t l Oa Ol)) as (s & Es & Ap & Inc & La). exists s. split; [exact Es|]. split; [exact Ap|]. split; [intros x Hx; right; apply Inc; exact Hx|].
    intros x [<-|Hx]; [|apply La; exact Hx]. eapply Rle_lt_trans; [apply latest_self; [|exact Oa]|exact H]. intros x Hx. apply (in_order_ge l t x Ol), Inc, Hx.
Qed.
(** So many samples take so long *)
Lemma elapsed_trans a b c : elapsed a b + elapsed b c = elapsed a c.
Proof. unfold elapsed. rewrite !minus_IZR. field. Qed.
Lemma apart_count g s : forall a, apart g a s -> INR (length s) * g <= elapsed a (last s a).
Proof.
  induction s as [|t s IH]; intros a H.
  - cbn. unfold elapsed. rewrite Z.sub_diag. lra.
  - destruct H as [A B]. specialize (IH t B). change (length (t :: s)) with (S (length s)). rewrite S_INR, Rmult_plus_distr_r, Rmult_1_l.
    assert (L : last (t :: s) a = last s t). { clear. revert t a. induction s as [|x s IH]; intros t a; [reflexivity|]. change (last (t :: x :: s) a) with (last (x :: s) a). rewrite !IH. reflexivity. }
    rewrite L, <- (elapsed_trans a t). lra.
Qed.

(** 250 Hz asked every 3 ms: every other time *)
Definition at_ns (k : Z) : utc := mkUtc (k / 1000000000) (k mod 1000000000).
Lemma at_ns_ok k : normal (at_ns k) /\ instant (at_ns k) = k.
Proof. unfold normal, instant, at_ns. cbn [sec nsec]. pose proof (Z.mod_pos_bound k 1000000000). pose proof (Z.div_mod k 1000000000). lia. Qed.
Lemma at_sub a b : (- 2 ^ 61 <= a <= 2 ^ 61)%Z -> (- 2 ^ 61 <= b <= 2 ^ 61)%Z -> sub (at_ns a) (at_ns b) = Some (at_ns (a - b)).
Proof.
  intros A B. destruct (at_ns_ok a) as [Na Ia]. destruct (at_ns_ok b) as [Nb Ib]. destruct (at_ns_ok (a - b)) as [Nc Ic].
  assert (- 2 ^ 61 <= sec (at_ns a) <= 2 ^ 61 /\ - 2 ^ 61 <= sec (at_ns b) <= 2 ^ 61)%Z.
  { unfold at_ns. cbn [sec]. split; (split; [apply Z.div_le_lower_bound; lia|]; apply Z.lt_succ_r, Z.div_lt_upper_bound; lia). }
  destruct (sub_ok _ _ Na Nb) as (d & E & Nd & I); try (unfold in64; lia). rewrite E. f_equal. apply instant_inj; [exact Nd|exact Nc|]. rewrite I, Ia, Ib, Ic. reflexivity.
Qed.
Definition ask (t0 : Z) (n : nat) : list utc := map (fun i => at_ns (t0 + 3000000 * Z.of_nat i)) (seq 1 n).
Lemma due_3 : fle (fdiv (of_Z 1) (of_Z 250)) (toSec (at_ns 3000000)) = false.
Proof. vm_compute. reflexivity. Qed.
Lemma due_6 : fle (fdiv (of_Z 1) (of_Z 250)) (toSec (at_ns 6000000)) = true.
Proof. vm_compute. reflexivity. Qed.
Lemma ask_step t0 n : ask t0 (2 + n) = at_ns (t0 + 3000000) :: at_ns (t0 + 6000000) :: ask (t0 + 6000000) n.
Proof.
  unfold ask. cbn [seq map Nat.add]. apply (f_equal2 cons); [f_equal; lia|]. apply (f_equal2 cons); [f_equal; lia|].
  rewrite <- (seq_shift n 2), <- (seq_shift n 1), !map_map. apply map_ext. intros i. f_equal. lia.
Qed.
Lemma every_other n : forall t0, (- 2 ^ 60 <= t0 <= 2 ^ 60)%Z -> (t0 + 6000000 * Z.of_nat n <= 2 ^ 60)%Z ->
  samples (of_Z 250) (at_ns t0) (ask t0 (2 * n)) = Some (map (fun i => at_ns (t0 + 6000000 * Z.of_nat i)) (seq 1 n)).
Proof.
  induction n as [|n IH]; intros t0 A B; [reflexivity|]. replace (2 * S n)%nat with (2 + 2 * n)%nat by lia. rewrite ask_step. cbn [samples].
  unfold due, control_dt. rewrite !at_sub by lia. replace (t0 + 3000000 - t0)%Z with 3000000%Z by lia. replace (t0 + 6000000 - t0)%Z with 6000000%Z by lia.
  cbn [UtcTimeModel.bind RotModel.bind]. rewrite due_3. cbn [RotModel.bind]. rewrite ?at_sub by lia. replace (t0 + 6000000 - t0)%Z with 6000000%Z by lia. cbn [UtcTimeModel.bind RotModel.bind]. rewrite due_6. cbn [RotModel.bind]. rewrite IH by lia. cbn [RotModel.bind]. f_equal. cbn [seq map]. apply (f_equal2 cons); [f_equal; lia|].
  rewrite <- (seq_shift n 1), map_map. apply map_ext. intros i. f_equal. lia.
Qed.
