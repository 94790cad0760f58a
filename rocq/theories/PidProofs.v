From Coq Require Import ZArith Reals List Lia Lra Bool.
From Flocq Require Import Core.Zaux Core.Raux Core.Defs Core.Generic_fmt Core.FLT Core.Ulp Core.Round_NE Core.Float_prop IEEE754.BinarySingleNaN.
From Verif Require Import Float64 PidModel PidSpec.
Import ListNotations.
Local Open Scope R_scope.

(** ** Magnitudes *)
Lemma upto_le e f x : (e <= f)%Z -> upto e x -> upto f x.
Proof. intros H [F B]. split; [exact F|]. eapply Rle_trans; [exact B|]. apply bpow_le. exact H. Qed.
Lemma upto_zero e : upto e zero.
Proof.
  split; [reflexivity|]. replace (val zero) with 0 by reflexivity. rewrite Rabs_R0. apply bpow_ge_0.
Qed.
Lemma sum_bpow e : bpow radix2 e + bpow radix2 e = bpow radix2 (e + 1).
Proof. rewrite bpow_plus. replace (bpow radix2 1) with 2 by reflexivity. ring. Qed.
Lemma upto_add e x y : (-1073 <= e + 1 < 1024)%Z -> upto e x -> upto e y -> upto (e + 1) (fadd x y).
Proof.
  intros He [Fx Bx] [Fy By].
  assert (H : Rabs (val x + val y) <= bpow radix2 (e + 1)).
  { rewrite <- sum_bpow. eapply Rle_trans; [apply Rabs_triang|]. lra. }
  destruct (fadd_ok x y (e + 1) He Fx Fy H) as [V F]. split; [exact F|]. rewrite V.
  apply rnd_le_bpow; [lia|exact H].
Qed.
Lemma fsub_ok x y e : (-1073 <= e < 1024)%Z -> finite x = true -> finite y = true ->
  Rabs (val x - val y) <= bpow radix2 e ->
  val (fsub x y) = rnd (val x - val y) /\ finite (fsub x y) = true.
Proof.
  intros He Fx Fy H. pose proof (Bminus_correct prec emax _ _ mode_NE x y Fx Fy) as C.
  unfold val in H. rewrite (rnd_lt_emax _ e) in C; [|lia|assumption].
  destruct C as (A & B & _). split; assumption.
Qed.
Lemma upto_sub e x y : (-1073 <= e + 1 < 1024)%Z -> upto e x -> upto e y -> upto (e + 1) (fsub x y).
Proof.
  intros He [Fx Bx] [Fy By].
  assert (H : Rabs (val x - val y) <= bpow radix2 (e + 1)).
  { rewrite <- sum_bpow. eapply Rle_trans; [apply Rabs_triang|]. rewrite Rabs_Ropp. lra. }
  destruct (fsub_ok x y (e + 1) He Fx Fy H) as [V F]. split; [exact F|]. rewrite V.
  apply rnd_le_bpow; [lia|exact H].
Qed.
Lemma upto_mul e f x y : (-1073 <= e + f < 1024)%Z -> upto e x -> upto f y -> upto (e + f) (fmul x y).
Proof.
  intros He [Fx Bx] [Fy By].
  assert (H : Rabs (val x * val y) <= bpow radix2 (e + f)).
  { rewrite Rabs_mult, bpow_plus. apply Rmult_le_compat; try apply Rabs_pos; assumption. }
  destruct (fmul_ok x y (e + f) He Fx Fy H) as [V F]. split; [exact F|]. rewrite V.
  apply rnd_le_bpow; [lia|exact H].
Qed.
Lemma fdiv_ok x y e : (-1073 <= e < 1024)%Z -> finite x = true -> val y <> 0 ->
  Rabs (val x / val y) <= bpow radix2 e ->
  val (fdiv x y) = rnd (val x / val y) /\ finite (fdiv x y) = true.
Proof.
  intros He Fx Hy H. pose proof (Bdiv_correct prec emax _ _ mode_NE x y Hy) as C.
  unfold val in H. rewrite (rnd_lt_emax _ e) in C; [|lia|assumption].
  destruct C as (A & B & _). unfold finite in *. rewrite Fx in B. split; assumption.
Qed.
Lemma upto_div e f x y : (-1073 <= e + f < 1024)%Z -> upto e x -> bpow radix2 (- f) <= Rabs (val y) -> upto (e + f) (fdiv x y).
Proof.
  intros He [Fx Bx] Hy.
  pose proof (bpow_gt_0 radix2 (- f)) as P.
  assert (Hy0 : val y <> 0) by (intros E; rewrite E, Rabs_R0 in Hy; lra).
  assert (H : Rabs (val x / val y) <= bpow radix2 (e + f)).
  { unfold Rdiv. rewrite Rabs_mult, Rabs_inv, bpow_plus. apply Rmult_le_compat; try apply Rabs_pos.
    - left. apply Rinv_0_lt_compat. lra.
    - exact Bx.
    - rewrite <- (Rinv_inv (bpow radix2 f)).
      rewrite <- bpow_opp. apply Rinv_le; assumption. }
  destruct (fdiv_ok x y (e + f) He Fx Hy0 H) as [V F]. split; [exact F|]. rewrite V.
  apply rnd_le_bpow; [lia|exact H].
Qed.
Lemma format_bpow e : (-1073 <= e)%Z -> generic_format radix2 (SpecFloat.fexp prec emax) (bpow radix2 e).
Proof. intros H. apply generic_format_bpow. unfold SpecFloat.fexp, SpecFloat.emin, prec, emax. lia. Qed.
(** A much smaller number added does not pass a power of two *)
Lemma absorb E f t : (-900 <= E < 1023)%Z -> (f + 54 <= E)%Z -> Rabs t <= bpow radix2 E + bpow radix2 f -> Rabs (rnd t) <= bpow radix2 E.
Proof.
  intros HE Hf Ht.
  assert (V : Valid_exp (SpecFloat.fexp prec emax)) by (apply fexp_correct; reflexivity).
  assert (K : forall t, t <= bpow radix2 E + bpow radix2 f -> rnd t <= bpow radix2 E).
  { clear t Ht. intros t Ht. apply (round_N_le_midp radix2 (SpecFloat.fexp prec emax)).
    - apply format_bpow. lia.
    - rewrite succ_eq_pos by apply bpow_ge_0. rewrite ulp_bpow.
      assert (B : bpow radix2 f < bpow radix2 (SpecFloat.fexp prec emax (E + 1)) / 2).
      { replace (bpow radix2 (SpecFloat.fexp prec emax (E + 1)) / 2) with (bpow radix2 (SpecFloat.fexp prec emax (E + 1) - 1)).
        - apply bpow_lt. unfold SpecFloat.fexp, SpecFloat.emin, prec, emax. lia.
        - unfold Z.sub. rewrite bpow_plus. replace (bpow radix2 (- (1))) with (/ 2) by reflexivity. reflexivity. }
      lra. }
  apply Rabs_le. split.
  - assert (E1 : rnd t = - rnd (- t)).
    { change (round_mode mode_NE) with ZnearestE. rewrite <- round_NE_opp. rewrite Ropp_involutive. reflexivity. }
    rewrite E1. apply Ropp_le_contravar. apply K. pose proof (Rle_abs (- t)) as A. rewrite Rabs_Ropp in A. lra.
  - apply K. pose proof (Rle_abs t). lra.
Qed.
Lemma upto_absorb E f x y : (-900 <= E < 1022)%Z -> (f + 54 <= E)%Z -> upto E x -> upto f y -> upto E (fadd x y).
Proof.
  intros HE Hf [Fx Bx] [Fy By].
  assert (H : Rabs (val x + val y) <= bpow radix2 E + bpow radix2 f).
  { eapply Rle_trans; [apply Rabs_triang|]. lra. }
  assert (H' : Rabs (val x + val y) <= bpow radix2 (E + 1)).
  { rewrite <- sum_bpow. pose proof (bpow_le radix2 f E ltac:(lia)). lra. }
  destruct (fadd_ok x y (E + 1) ltac:(lia) Fx Fy H') as [V F]. split; [exact F|]. rewrite V.
  apply (absorb E f); [lia|lia|exact H].
Qed.

(** ** The limit *)
Lemma rnd_val x : rnd (val x) = val x.
Proof. apply round_generic; [apply valid_rnd_round_mode|apply generic_format_B2R]. Qed.
Lemma neg_ok m : finite m = true -> val (fmul (of_Z (-1)) m) = - val m /\ finite (fmul (of_Z (-1)) m) = true.
Proof.
  intros F. pose proof (Bmult_correct prec emax _ _ mode_NE (of_Z (-1)) m) as C.
  assert (V1 : B2R (of_Z (-1)) = -1).
  { unfold of_Z. cbv. lra. }
  rewrite V1 in C. replace (-1 * B2R m) with (- val m) in C by (unfold val; ring).
  assert (R : rnd (- val m) = - val m).
  { apply round_generic; [apply valid_rnd_round_mode|]. apply generic_format_opp, generic_format_B2R. }
  rewrite R in C. rewrite Rlt_bool_true in C.
  - destruct C as (A & B & _). unfold finite in *. rewrite F in B. split; [exact A|exact B].
  - rewrite Rabs_Ropp. apply abs_B2R_lt_emax.
Qed.
Lemma clip_ok u m : is_nan u = false -> finite m = true -> 0 <= val m -> between m (clip u m).
Proof.
  intros Hu Fm Hm. destruct (neg_ok m Fm) as [Vn Fn]. unfold clip, between. set (n := fmul (of_Z (-1)) m) in *. clearbody n.
  destruct (is_finite u) eqn:Fu.
  - rewrite (flt_ok m u Fm Fu), (flt_ok u n Fu Fn). destruct (Rlt_bool_spec (val m) (val u)).
    + split; [exact Fm|lra].
    + destruct (Rlt_bool_spec (val u) (val n)); [split; [exact Fn|lra]|]. split; [exact Fu|lra].
  - destruct u as [b|[|]| |b mm ee Hb]; try discriminate.
    + assert (E1 : flt m (B754_infinity true) = false) by (destruct m as [[|]|[|]| |[|] ? ? ?]; try discriminate; reflexivity).
      assert (E2 : flt (B754_infinity true) n = true) by (destruct n as [[|]|[|]| |[|] ? ? ?]; try discriminate; reflexivity).
      rewrite E1, E2. split; [exact Fn|lra].
    + assert (E1 : flt m (B754_infinity false) = true) by (destruct m as [[|]|[|]| |[|] ? ? ?]; try discriminate; reflexivity).
      rewrite E1. split; [exact Fm|lra].
Qed.
Lemma finite_not_nan x : finite x = true -> is_nan x = false.
Proof. destruct x; try reflexivity; discriminate. Qed.

(** ** Histories of moderate calls *)
Definition pinv (s : pid) : Prop := upto 410 (integrator s) /\ upto 180 (differentiator s) /\ upto 100 (prev_x s).

Lemma clip_self u m : finite u = true -> finite m = true -> Rabs (val u) <= val m -> clip u m = u.
Proof.
  intros Fu Fm H. destruct (neg_ok m Fm) as [Vn Fn]. unfold clip.
  rewrite (flt_ok m u Fm Fu), (flt_ok u _ Fu Fn), Vn. apply Rabs_le_inv in H.
  rewrite (Rlt_bool_false (val m) (val u)) by lra. rewrite (Rlt_bool_false (val u) (- val m)) by lra. reflexivity.
Qed.
Lemma fne_self u : finite u = true -> fne u u = false.
Proof. intros F. unfold fne. rewrite Beqb_refl. destruct u; try discriminate; reflexivity. Qed.
Lemma zero_val : val zero = 0.
Proof. reflexivity. Qed.

Lemma run5_inv o s dt x x_c upd xdot : moderate_options o -> pinv s -> upto 20 dt -> upto 100 x -> upto 100 x_c -> upto 180 xdot ->
  between (limit o) (fst (run5 o s dt x x_c upd xdot)) /\ pinv (snd (run5 o s dt x x_c upd xdot)).
Proof.
  intros (Mp & Mi & Md & Mt & Mt0 & Mi0 & Fl & Pl & Hl) (Is & Ds & Ps) Hdt Hx Hc Hxd. unfold run5. cbv zeta. cbn [fst snd].
  pose proof (upto_sub 100 x_c x ltac:(lia) Hc Hx) as He. set (err := fsub x_c x) in *.
  pose proof (upto_mul (100 + 1) 100 err (kp o) ltac:(lia) He Mp) as Hp. set (p := fmul err (kp o)) in *.
  assert (Hd : upto 280 (if flt zero (kd o) then fmul (kd o) xdot else zero)).
  { destruct (flt zero (kd o)); [exact (upto_mul 100 180 _ _ ltac:(lia) Md Hxd)|apply upto_zero]. }
  set (d := if flt zero (kd o) then fmul (kd o) xdot else zero) in *.
  assert (Ha : upto 410 (if andb (flt zero (ki o)) upd then fadd (integrator s) (fmul err dt) else integrator s)).
  { destruct (andb _ _); [|exact Is]. apply (upto_absorb 410 121); [lia|lia|exact Is|].
    exact (upto_mul 101 20 err dt ltac:(lia) He Hdt). }
  set (acc := if andb (flt zero (ki o)) upd then fadd (integrator s) (fmul err dt) else integrator s) in *.
  assert (Hi : upto 510 (if andb (flt zero (ki o)) upd then fmul (ki o) acc else zero)).
  { destruct (andb _ _); [exact (upto_mul 100 410 _ _ ltac:(lia) Mi Ha)|apply upto_zero]. }
  set (i := if andb (flt zero (ki o)) upd then fmul (ki o) acc else zero) in *.
  pose proof (upto_le (100 + 1 + 100) 280 p ltac:(lia) Hp) as Hp'.
  pose proof (upto_sub 280 p d ltac:(lia) Hp' Hd) as Hpd.
  pose proof (upto_add 510 (fsub p d) i ltac:(lia) (upto_le (280 + 1) 510 _ ltac:(lia) Hpd) Hi) as Hu.
  set (u := fadd (fsub p d) i) in *. change (510 + 1)%Z with 511%Z in Hu.
  pose proof (clip_ok u (limit o) (finite_not_nan u (proj1 Hu)) Fl Pl) as Hb.
  split; [exact Hb|]. split; [|split; assumption]. cbn [integrator].
  destruct (andb _ (flt zero (ki o))) eqn:W; [|exact Ha].
  apply andb_prop in W. destruct W as [W Wk]. apply andb_prop in W. destruct W as [Wn _].
  rewrite (flt_ok zero (ki o) eq_refl (proj1 Mi)), zero_val in Wk.
  assert (Pk : 0 < val (ki o)) by (revert Wk; destruct (Rlt_bool_spec 0 (val (ki o))); [intros; assumption|discriminate]).
  destruct Hl as [Hl|Hl].
  - assert (Hus : upto 300 (clip u (limit o))).
    { destruct Hb as [Fb Bb]. split; [exact Fb|]. apply Rabs_le. lra. }
    pose proof (upto_sub 300 _ p ltac:(lia) Hus (upto_le (100 + 1 + 100) 300 p ltac:(lia) Hp)) as H1.
    pose proof (upto_add (300 + 1) _ d ltac:(lia) H1 (upto_le 280 (300 + 1) d ltac:(lia) Hd)) as H2.
    apply (upto_le (300 + 1 + 1 + 100)); [lia|].
    apply upto_div; [lia|exact H2|]. rewrite Rabs_pos_eq by lra. apply Mi0, Pk.
  - exfalso. rewrite clip_self in Wn; [rewrite fne_self in Wn by exact (proj1 Hu); discriminate|exact (proj1 Hu)|exact Fl|].
    eapply Rle_trans; [exact (proj2 Hu)|]. eapply Rle_trans; [apply (bpow_le radix2 511 600); lia|exact Hl].
Qed.

Lemma milli_val : val tenth_milli = rnd (1 / 10000) /\ finite tenth_milli = true.
Proof.
  assert (E1 : val (of_Z 1) = 1) by (cbv; lra). assert (E2 : val (of_Z 10000) = 10000) by (cbv; lra).
  pose proof (fdiv_ok (of_Z 1) (of_Z 10000) 0 ltac:(lia) eq_refl) as H. rewrite E1, E2 in H.
  apply H; [lra|]. change (bpow radix2 0) with 1. rewrite Rabs_pos_eq; lra.
Qed.
Lemma milli_lower : bpow radix2 (-14) <= val tenth_milli.
Proof.
  rewrite (proj1 milli_val). rewrite <- (round_generic radix2 (SpecFloat.fexp prec emax) (round_mode mode_NE) (bpow radix2 (-14))).
  - apply rnd_mono. change (bpow radix2 (-14)) with (/ 16384). lra.
  - apply format_bpow. lia.
Qed.

Lemma run4_inv o s dt x x_c upd : moderate_options o -> pinv s -> upto 20 dt -> upto 100 x -> upto 100 x_c ->
  between (limit o) (fst (run4 o s dt x x_c upd)) /\ pinv (snd (run4 o s dt x x_c upd)).
Proof.
  intros Mo (Is & Ds & Ps) Hdt Hx Hc. unfold run4. cbv zeta.
  assert (Hd : upto 180 (if flt tenth_milli dt
           then fadd (fmul (fdiv (fsub (fmul two (tau o)) dt) (fadd (fmul two (tau o)) dt)) (differentiator s))
                     (fmul (fdiv two (fadd (fmul two (tau o)) dt)) (fsub x (prev_x s)))
           else differentiator s)).
  { destruct (flt tenth_milli dt) eqn:T; [|exact Ds].
    rewrite (flt_ok _ _ (proj2 milli_val) (proj1 Hdt)) in T.
    assert (Hlow : bpow radix2 (-14) <= val dt).
    { revert T. destruct (Rlt_bool_spec (val tenth_milli) (val dt)); [|discriminate]. intros _.
      pose proof milli_lower. lra. }
    pose proof (bpow_gt_0 radix2 (-14)) as P14.
    destruct Mo as (_ & _ & _ & Mt & Mt0 & _).
    assert (E2 : val two = 2) by (cbv; lra).
    assert (T2 : upto 1 two). { split; [reflexivity|]. rewrite E2, Rabs_pos_eq by lra. apply Rle_refl. }
    pose proof (upto_mul 1 20 two (tau o) ltac:(lia) T2 Mt) as Ha.
    assert (Ha0 : 0 <= val (fmul two (tau o))).
    { destruct (fmul_ok two (tau o) 21 ltac:(lia) eq_refl (proj1 Mt)) as [V _].
      - rewrite Rabs_mult. change 21%Z with (1 + 20)%Z. rewrite bpow_plus. apply Rmult_le_compat; try apply Rabs_pos; [exact (proj2 T2)|exact (proj2 Mt)].
      - rewrite V. rewrite <- (round_0 radix2 (SpecFloat.fexp prec emax) (round_mode mode_NE)). apply rnd_mono. rewrite E2. lra. }
    set (a := fmul two (tau o)) in *. clearbody a.
    pose proof (upto_le 20 21 dt ltac:(lia) Hdt) as Hdt'.
    assert (A1 : Rabs (val a + val dt) <= bpow radix2 22).
    { change 22%Z with (21 + 1)%Z. rewrite <- sum_bpow. eapply Rle_trans; [apply Rabs_triang|]. pose proof (proj2 Ha). pose proof (proj2 Hdt'). simpl Z.add in *. lra. }
    assert (A2 : Rabs (val a - val dt) <= bpow radix2 22).
    { change 22%Z with (21 + 1)%Z. rewrite <- sum_bpow. eapply Rle_trans; [apply Rabs_triang|]. rewrite Rabs_Ropp. pose proof (proj2 Ha). pose proof (proj2 Hdt'). simpl Z.add in *. lra. }
    destruct (fadd_ok a dt 22 ltac:(lia) (proj1 Ha) (proj1 Hdt) A1) as [V1 F1].
    destruct (fsub_ok a dt 22 ltac:(lia) (proj1 Ha) (proj1 Hdt) A2) as [V2 F2].
    assert (S1 : bpow radix2 (-14) <= val (fadd a dt)).
    { rewrite V1. eapply Rle_trans; [exact Hlow|]. rewrite <- (rnd_val dt) at 1. apply rnd_mono. lra. }
    assert (S2 : Rabs (val (fsub a dt)) <= val (fadd a dt)).
    { rewrite V1, V2. apply Rabs_le. split.
      - change (round_mode mode_NE) with ZnearestE. rewrite <- round_NE_opp. change ZnearestE with (round_mode mode_NE). apply rnd_mono. lra.
      - apply rnd_mono. lra. }
    assert (Hc1 : upto 0 (fdiv (fsub a dt) (fadd a dt))).
    { assert (Q : Rabs (val (fsub a dt) / val (fadd a dt)) <= bpow radix2 0).
      { unfold Rdiv. rewrite Rabs_mult, Rabs_inv, (Rabs_pos_eq (val (fadd a dt))) by lra. change (bpow radix2 0) with 1.
        apply (Rmult_le_reg_r (val (fadd a dt))); [lra|]. rewrite Rmult_assoc, Rinv_l by lra. lra. }
      destruct (fdiv_ok (fsub a dt) (fadd a dt) 0 ltac:(lia) F2 ltac:(lra) Q) as [V F]. split; [exact F|]. rewrite V.
      apply rnd_le_bpow; [lia|exact Q]. }
    assert (Hw : upto 15 (fdiv two (fadd a dt))).
    { change 15%Z with (1 + 14)%Z. apply upto_div; [lia|exact T2|]. rewrite Rabs_pos_eq by lra. exact S1. }
    apply (upto_absorb 180 116); [lia|lia| |].
    - exact (upto_mul 0 180 _ _ ltac:(lia) Hc1 Ds).
    - exact (upto_mul 15 101 _ _ ltac:(lia) Hw (upto_sub 100 x (prev_x s) ltac:(lia) Hx Ps)). }
  set (d := if flt tenth_milli dt then _ else differentiator s) in *. clearbody d.
  apply run5_inv; try assumption.
  - split; [exact Is|]. split; [exact Hd|exact Hx].
  - destruct (flt tenth_milli dt); [exact Hd|apply upto_zero].
Qed.

Lemma step_inv o s c : moderate_options o -> pinv s -> moderate_call c ->
  between (limit o) (fst (step o s c)) /\ pinv (snd (step o s c)).
Proof.
  intros Mo Hs Hc. destruct c as [dt x x_c upd|dt x x_c upd xdot]; cbn [step].
  - destruct Hc as (H1 & H2 & H3). apply run4_inv; assumption.
  - destruct Hc as (H1 & H2 & H3 & H4). apply run5_inv; try assumption. apply (upto_le 100); [lia|exact H4].
Qed.
Lemma outputs_between o cs : moderate_options o -> Forall moderate_call cs -> Forall (between (limit o)) (outputs o start cs).
Proof.
  intros Mo Hc. assert (G : forall s, pinv s -> Forall (between (limit o)) (outputs o s cs)).
  { induction Hc as [|c cs Hc Hcs IH]; intros s Hs; cbn [outputs]; [constructor|].
    destruct (step_inv o s c Mo Hs Hc) as [H1 H2]. constructor; [exact H1|apply IH, H2]. }
  apply G. split; [apply upto_zero|split; apply upto_zero].
Qed.

(** A single call: the result is within the limit or not a number *)
Lemma step_limit o s c : finite (limit o) = true -> 0 <= val (limit o) -> is_nan (fst (step o s c)) = false -> between (limit o) (fst (step o s c)).
Proof.
  intros Fl Pl Hn.
  assert (K : forall u, is_nan (clip u (limit o)) = false -> between (limit o) (clip u (limit o))).
  { intros u Hu. destruct (is_nan u) eqn:Nu; [|apply clip_ok; assumption].
    exfalso. destruct u; try discriminate. unfold clip in Hu. destruct (neg_ok (limit o) Fl) as [_ Fn].
    assert (E1 : flt (limit o) B754_nan = false) by (destruct (limit o) as [[|]|[|]| |[|] ? ? ?]; reflexivity).
    assert (E2 : flt B754_nan (fmul (of_Z (-1)) (limit o)) = false) by (destruct (fmul (of_Z (-1)) (limit o)) as [[|]|[|]| |[|] ? ? ?]; reflexivity).
    rewrite E1, E2 in Hu. discriminate. }
  destruct c as [dt x x_c upd|dt x x_c upd xdot]; cbn [step] in *; unfold run4 in *; unfold run5 in *; cbv zeta in *; cbn [fst] in *; apply K; exact Hn.
Qed.
