(** Proofs about the simulated ranges and the replay of ephemerides. *)
From Coq Require Import ZArith Reals List Lra Lia Bool.
From Verif Require Import UtcTimeModel UtcTimeSpec UtcTimeProofs RotModel RotSpec RotProofs OrbModel AtmModel AtmSpec AtmTimeProofs EkfModel EkfSpec EkfProofs FacModel SimModel SimSpec.
Import ListNotations.
Local Open Scope R_scope.

(** ** The search for the time of transmission *)
Section Search.
  Variables (minus : R -> R -> R) (P W : R -> vec) (t : R) (rec : vec).
  Lemma loop_same fuel : forall s r (first : bool) (dt : R) (sg : option R), sim_loop fuel minus P W t rec s = Some r ->
    (if (if first then (if Req_EM_T (norm (W s)) 0 then false else true) else if Rlt_dec (1 / 1000) (Rabs dt * norm (W s)) then true else false) then True else False) ->
    exists s0, light_time fuel minus P W t rec first dt s sg = Some (fst r, Some (computeSagnac (P s0) rec)) /\
      fst (snd r) = vsub (P s0) rec /\ snd (snd r) = norm (vsub (P s0) rec) + computeSagnac (P s0) rec /\
      exists d, fst r = minus s0 d /\ Rabs d * norm (W (fst r)) <= 1 / 1000.
  Proof.
    induction fuel as [|k IH]; intros s r first dt sg H G; [discriminate|]. cbn [sim_loop] in H. cbv zeta in H. cbn [light_time]. cbv zeta.
    destruct (if first then _ else _); [clear G|contradiction].
    destruct (Rlt_dec (1 / 1000) _) as [L|L].
    - apply (IH _ _ false _ _ H). destruct (Rlt_dec _ _); [exact I|contradiction].
    - injection H as <-. cbn [fst snd]. exists s. destruct k; cbn [light_time]; (destruct (Rlt_dec (1 / 1000) _); [contradiction|]).
      all: split; [reflexivity|]; split; [reflexivity|]; split; [reflexivity|]; eexists; split; [reflexivity|lra].
  Qed.
  Lemma sim_found fuel s los range v vmin eps : 0 < vmin -> slower v P W -> (forall a, vmin <= norm (W a)) -> subtracts eps minus ->
    sim_loop fuel minus P W t rec t = Some (s, (los, range)) ->
    exists sagnac, update fuel minus P W t rec = Some (s, Some sagnac) /\
      norm (vsub los (vsub (P s) rec)) <= v * (1 / 1000 / vmin + eps) /\ range = norm los + sagnac.
  Proof.
    intros V [S1 S2] M E H. destruct (loop_same fuel t _ true 0 None H) as (s0 & U & L & Rg & d & Sd & Dd).
    { pose proof (M t). destruct (Req_EM_T (norm (W t)) 0); [lra|exact I]. }
    cbn [fst snd] in *. exists (computeSagnac (P s0) rec). split; [exact U|]. split; [|rewrite L; exact Rg].
    rewrite L. replace (vsub (vsub (P s0) rec) (vsub (P s) rec)) with (vsub (P s0) (P s)) by (unfold vsub; cbn [vx vy vz]; f_equal; ring).
    change (norm (vsub (P s0) (P s))) with (dist (P s0) (P s)). eapply Rle_trans; [apply S1|].
    assert (v0 : 0 <= v) by (pose proof (S2 t); pose proof (M t); lra). apply Rmult_le_compat_l; [exact v0|].
    pose proof (E s0 d) as Ed. rewrite <- Sd in Ed.
    assert (Rabs d <= 1 / 1000 / vmin).
    { apply (Rmult_le_reg_r vmin); [exact V|]. replace (1 / 1000 / vmin * vmin) with (1 / 1000) by (field; lra).
      pose proof (M s). pose proof (Rabs_pos d). eapply Rle_trans; [|exact Dd]. apply Rmult_le_compat_l; assumption. }
    replace (s0 - s) with (d - (s - (s0 - d))) by ring. eapply Rle_trans; [apply Rabs_triang|]. rewrite Rabs_Ropp. lra.
  Qed.
End Search.
Lemma norm_lip a b : Rabs (norm a - norm b) <= norm (vsub a b).
Proof.
  pose proof (dist_lip a b (V 0 0 0)) as H. unfold dist in H. assert (Z : forall v, vsub v (V 0 0 0) = v) by (intros v; destruct v as [x y z]; unfold vsub; cbn [vx vy vz]; f_equal; ring).
  rewrite !Z in H. exact H.
Qed.
(** The clock of the filter counts nanoseconds *)
Definition clock_agrees (sim est : R * R) : Prop := fst est = fst sim * 10 ^ 9 /\ snd est = snd sim * 10 ^ 9.
Lemma prange_near los range sagnac iono tropo clk est y p delta : clock_agrees clk est -> range = norm los + sagnac ->
  s_sagnac y = sagnac -> s_iono y = iono -> s_tropo y = tropo -> norm (vsub los (vsub (s_pos y) p)) <= delta ->
  Rabs (sim_prange range iono tropo clk (s_clk y) - est_prange y p est) <= delta.
Proof.
  intros [C _] -> <- <- <- D. unfold sim_prange, est_prange. rewrite C. replace (fst clk * 10 ^ 9 / 10 ^ 9) with (fst clk) by field.
  match goal with |- Rabs ?a <= _ => replace a with (norm los - norm (vsub (s_pos y) p)) by ring end. eapply Rle_trans; [apply norm_lip|exact D].
Qed.
(** Two directions that differ by little: the simulator's Doppler and the factor's *)
Definition los_rate (los : vec) (range : R) (spos svel p v : vec) (drift : R) : R :=
  dot (vsub svel v) (vscale (/ range) los) + OMEGA_EARTH / C_LIGHT * (vy svel * vx p + vy spos * vx v - vx svel * vy p - vx spos * vy v) + C_LIGHT * drift.
Lemma scaled_diff los1 los2 r1 r2 sg delta : 0 < r1 -> 0 < r2 -> r1 = norm los1 + sg -> r2 = norm los2 + sg -> norm (vsub los1 los2) <= delta ->
  norm (vsub (vscale (/ r1) los1) (vscale (/ r2) los2)) <= delta * (1 + norm los2 / r2) / r1.
Proof.
  intros P1 P2 E1 E2 D.
  replace (vsub (vscale (/ r1) los1) (vscale (/ r2) los2)) with (vadd (vscale (/ r1) (vsub los1 los2)) (vscale (/ r1 - / r2) los2)).
  2: { unfold vsub, vadd, vscale. cbn [vx vy vz]. f_equal; ring. }
  eapply Rle_trans; [apply norm_add|]. rewrite (norm_scale_pos (/ r1)) by (left; apply Rinv_0_lt_compat; exact P1).
  assert (K : norm (vscale (/ r1 - / r2) los2) = Rabs (/ r1 - / r2) * norm los2).
  { unfold norm at 1. replace (dot (vscale (/ r1 - / r2) los2) (vscale (/ r1 - / r2) los2)) with (Rsqr (/ r1 - / r2) * dot los2 los2) by (unfold dot, vscale, Rsqr; cbn [vx vy vz]; ring).
    rewrite sqrt_mult by (try apply Rle_0_sqr; apply dot_pos). rewrite sqrt_Rsqr_abs. reflexivity. }
  rewrite K. assert (Q : Rabs (/ r1 - / r2) <= delta / (r1 * r2)).
  { replace (/ r1 - / r2) with (- (r1 - r2) / (r1 * r2)) by (field; lra). unfold Rdiv. rewrite Rabs_mult, Rabs_Ropp, (Rabs_pos_eq (/ (r1 * r2))) by (left; apply Rinv_0_lt_compat; nra).
    apply Rmult_le_compat_r; [left; apply Rinv_0_lt_compat; nra|]. replace (r1 - r2) with (norm los1 - norm los2) by lra. eapply Rle_trans; [apply norm_lip|exact D]. }
  pose proof (norm_nonneg los2) as N. apply (Rmult_le_compat_r (norm los2)) in Q; [|exact N].
  assert (I : 0 < / r1) by (apply Rinv_0_lt_compat; exact P1). apply (Rmult_le_compat_l (/ r1)) in D; [|lra].
  replace (delta * (1 + norm los2 / r2) / r1) with (/ r1 * delta + delta / (r1 * r2) * norm los2) by (field; lra). lra.
Qed.
Lemma dop_near los1 los2 r1 r2 sg delta spos svel p v k : 0 < r1 -> 0 < r2 -> r1 = norm los1 + sg -> r2 = norm los2 + sg -> norm (vsub los1 los2) <= delta ->
  Rabs (los_rate los1 r1 spos svel p v k - los_rate los2 r2 spos svel p v k) <= norm (vsub svel v) * (delta * (1 + norm los2 / r2) / r1).
Proof.
  intros P1 P2 E1 E2 D. unfold los_rate.
  match goal with |- Rabs ?a <= _ => replace a with (dot (vsub svel v) (vsub (vscale (/ r1) los1) (vscale (/ r2) los2))) by (unfold dot, vsub, vscale; cbn [vx vy vz]; ring) end.
  eapply Rle_trans; [apply cauchy_abs|]. apply Rmult_le_compat_l; [apply norm_nonneg|]. exact (scaled_diff _ _ _ _ _ _ P1 P2 E1 E2 D).
Qed.

(** ** Replay *)
Lemma replay_stuck {A} l s (e : A) q : (forall t, In t l -> (sec s < sec t)%Z) -> replay l ((s, e) :: q) = Some [].
Proof.
  induction l as [|t l IH]; intros H; [reflexivity|]. cbn [replay sampleEph]. rewrite ge_is. destruct (sec s >=? sec t)%Z eqn:G.
  - apply Z.geb_le in G. pose proof (H t (or_introl eq_refl)). lia.
  - cbn [RotModel.bind snd fst]. rewrite IH; [reflexivity|]. intros x Hx. apply H. right. exact Hx.
Qed.
Lemma replay_form {A} : forall l (q : list (utc * A)), seconds_grow l -> exists k,
  (forall i, (i < k)%nat -> ahead_at l q i) /\
  ((k = length l /\ replay l q = Some (one_by_one k l q)) \/ (behind_at l q k /\ replay l q = Some (one_by_one k l q)) \/ (k = length q /\ (length q < length l)%nat /\ replay l q = None)).
Proof.
  induction l as [|t l IH]; intros q G.
  - exists O. split; [intros i Hi; lia|]. left. split; reflexivity.
  - destruct q as [|[s e] q].
    + exists O. split; [intros i Hi; lia|]. right. right. split; [reflexivity|]. split; [cbn; lia|reflexivity].
    + assert (G' : seconds_grow l). { intros i j a b Lij Ha Hb. apply (G (S i) (S j) a b); [lia|exact Ha|exact Hb]. }
      destruct (Z_lt_le_dec (sec s) (sec t)) as [L|L].
      * exists O. split; [intros i Hi; lia|]. right. left. split; [exists t, s, e; split; [reflexivity|split; [reflexivity|exact L]]|].
        change (one_by_one 0 (t :: l) ((s, e) :: q)) with (@nil (utc * A)). apply replay_stuck. intros x Hx.
        destruct (In_nth_error _ _ Hx) as [j Hj]. pose proof (G O j t x ltac:(lia) eq_refl Hj). lia.
      * destruct (IH q G') as (k & H & C). exists (S k). cbn [replay sampleEph]. rewrite ge_is.
        assert (Gb : (sec s >=? sec t)%Z = true) by (apply Z.geb_le; exact L). rewrite Gb. cbn [RotModel.bind snd fst]. split.
        { intros [|i] Hi; [exists t, s, e; split; [reflexivity|split; [reflexivity|exact L]]|]. apply H. lia. }
        destruct C as [[-> ->]|[[B ->]|(-> & Lt & ->)]]; cbn [RotModel.bind].
        { left. split; reflexivity. } { right. left. split; [exact B|reflexivity]. } { right. right. split; [reflexivity|]. split; [cbn [length]; lia|reflexivity]. }
Qed.
(** It ends when the filter's search does *)
Lemma sim_ends minus P W t rec fuel : forall s (first : bool) (dt : R) (sg : option R) r,
  (if (if first then (if Req_EM_T (norm (W s)) 0 then false else true) else if Rlt_dec (1 / 1000) (Rabs dt * norm (W s)) then true else false) then True else False) ->
  light_time fuel minus P W t rec first dt s sg = Some r -> exists q, sim_loop fuel minus P W t rec s = Some q.
Proof.
  induction fuel as [|k IH]; intros s first dt sg r G; cbn [light_time]; cbv zeta; (destruct (if first then _ else _); [clear G|contradiction]); [discriminate|].
  intros H. cbn [sim_loop]. cbv zeta. destruct (Rlt_dec (1 / 1000) _) as [L|L]; [|eexists; reflexivity].
  refine (IH _ false _ _ _ _ H). destruct (Rlt_dec _ _); [exact I|contradiction].
Qed.
Lemma sim_agrees P W v t rec minus : v <= 5000 -> slower v P W -> (forall a, 1000 <= norm (W a)) ->
  norm rec <= 10000000 -> subtracts (1 / 10 ^ 9) minus -> Rabs (travel P rec t) <= 1 / 5 -> forall fuel, (3 <= fuel)%nat ->
  exists s los range sagnac, sim_loop fuel minus P W t rec t = Some (s, (los, range)) /\ update fuel minus P W t rec = Some (s, Some sagnac) /\
    range = norm los + sagnac /\ norm (vsub los (vsub (P s) rec)) <= v * (1 / 1000 / 1000 + 1 / 10 ^ 9).
Proof.
  intros Hv Hs Hmin Hr Hm Ht fuel L.
  assert (V : 0 < 1000 /\ 1000 <= v /\ v <= 5000). { destruct Hs as [_ S]. specialize (S t). specialize (Hmin t). lra. }
  assert (B : Rabs (travel P rec t) * v <= 1 / 1000 * 1000 ^ 2). { pose proof (Rabs_pos (travel P rec t)). cbn [pow]. nra. }
  destruct (update_ok P W v 1000 t rec minus V Hs Hmin Hr Hm 2 fuel L B) as (s & out & E & _).
  destruct (sim_ends minus P W t rec fuel t true 0 None _ ltac:(pose proof (Hmin t); destruct (Req_EM_T (norm (W t)) 0); [lra|exact I]) E) as [[s' [los range]] H].
  destruct (sim_found minus P W t rec fuel s' los range v 1000 (1 / 10 ^ 9) ltac:(lra) Hs Hmin Hm H) as (sagnac & U & D & Rg).
  exists s', los, range, sagnac. split; [exact H|split; [exact U|split; [exact Rg|exact D]]].
Qed.
Lemma sim_doppler_is lo range spos svel p v clk sclk : 0 < range -> sim_doppler lo range spos svel p v clk sclk = Some (los_rate lo range spos svel p v (snd clk - snd sclk)).
Proof.
  intros P. unfold sim_doppler, div. destruct (Req_EM_T range 0); [lra|]. cbn [bind]. unfold los_rate. replace (1 / range) with (/ range) by (field; lra). reflexivity.
Qed.
Lemma doppler_hat_is f a : 0 < norm (los f a) + g_sagnac f -> doppler_hat f a =
  Some (los_rate (los f a) (norm (los f a) + g_sagnac f) (g_pos f) (g_vel f) (ant_pos (g_e2r f) (a_r2n a) (a_n2b a) (a_pb a)) (ant_vel (g_e2r f) (a_r2n a) (a_n2b a) (a_vel a)) (snd (a_clk a) * / 10 ^ 9 - snd (g_clk f))).
Proof.
  intros P. unfold doppler_hat. cbv zeta. unfold div. set (r2 := norm (los f a) + g_sagnac f) in *. destruct (Req_EM_T r2 0); [lra|]. cbn [bind]. unfold los_rate. replace (1 / r2) with (/ r2) by (field; lra). reflexivity.
Qed.
Lemma dop_agrees f a lo range delta clk d k : clock_agrees clk (a_clk a) -> range = norm lo + g_sagnac f -> 0 < range -> 0 < norm (los f a) + g_sagnac f ->
  norm (vsub lo (los f a)) <= delta ->
  sim_doppler lo range (g_pos f) (g_vel f) (ant_pos (g_e2r f) (a_r2n a) (a_n2b a) (a_pb a)) (ant_vel (g_e2r f) (a_r2n a) (a_n2b a) (a_vel a)) clk (g_clk f) = Some d ->
  doppler_hat f a = Some k ->
  Rabs (d - k) <= norm (vsub (g_vel f) (ant_vel (g_e2r f) (a_r2n a) (a_n2b a) (a_vel a))) * (delta * (1 + norm (los f a) / (norm (los f a) + g_sagnac f)) / range).
Proof.
  intros [_ C] Rg P1 P2 D A B. rewrite (sim_doppler_is _ _ _ _ _ _ _ _ P1) in A. rewrite (doppler_hat_is f a P2), C in B.
  replace (snd clk * 10 ^ 9 * / 10 ^ 9) with (snd clk) in B by field.
  match type of A with Some ?x = Some _ => assert (Ea : d = x) by congruence end. match type of B with Some ?x = Some _ => assert (Eb : k = x) by congruence end. rewrite Ea, Eb.
  exact (dop_near lo (los f a) range _ (g_sagnac f) delta (g_pos f) (g_vel f) _ _ (snd clk - snd (g_clk f)) P1 P2 Rg eq_refl D).
Qed.
