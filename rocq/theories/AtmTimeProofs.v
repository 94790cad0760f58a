(** The time of transmission. *)
From Coq Require Import ZArith Reals Lra Lia Psatz.
From Verif Require Import RotModel RotSpec OrbModel OrbSpec AtmModel AtmSpec.
Local Open Scope R_scope.

Lemma dot_pos a : 0 <= dot a a.
Proof. unfold dot. nra. Qed.
Lemma norm_nonneg a : 0 <= norm a.
Proof. apply sqrt_pos. Qed.
Lemma norm_sq a : norm a * norm a = dot a a.
Proof. apply sqrt_sqrt. apply dot_pos. Qed.
Lemma cauchy a b : dot a b <= norm a * norm b.
Proof.
  assert (L : dot a b * dot a b <= dot a a * dot b b).
  { assert (0 <= dot (cross a b) (cross a b)) as P by apply dot_pos.
    assert (dot (cross a b) (cross a b) = dot a a * dot b b - dot a b * dot a b) as E by (unfold dot, cross; cbn [vx vy vz]; ring). lra. }
  rewrite <- !norm_sq in L. pose proof (norm_nonneg a). pose proof (norm_nonneg b). set (x := dot a b) in *. set (p := norm a) in *. set (q := norm b) in *. clearbody x p q.
  assert (0 <= p * q) by (apply Rmult_le_pos; assumption). destruct (Rle_lt_dec x 0); [lra|]. apply Rsqr_incr_0; unfold Rsqr; lra.
Qed.
Lemma norm_add a b : norm (vadd a b) <= norm a + norm b.
Proof.
  pose proof (cauchy a b) as C. pose proof (norm_sq a) as A. pose proof (norm_sq b) as B. pose proof (norm_sq (vadd a b)) as E.
  assert (dot (vadd a b) (vadd a b) = dot a a + 2 * dot a b + dot b b) as D by (unfold dot, vadd; cbn [vx vy vz]; ring). rewrite D in E.
  pose proof (norm_nonneg a). pose proof (norm_nonneg b). apply Rsqr_incr_0; unfold Rsqr; [nra|apply norm_nonneg|lra].
Qed.
Lemma dist_triangle a b c : dist a c <= dist a b + dist b c.
Proof. unfold dist. replace (vsub a c) with (vadd (vsub a b) (vsub b c)); [apply norm_add|]. unfold vadd, vsub. cbn [vx vy vz]. f_equal; ring. Qed.
Lemma dist_comm a b : dist a b = dist b a.
Proof. unfold dist, norm. f_equal. unfold dot, vsub. cbn [vx vy vz]. ring. Qed.
Lemma dist_lip a b c : Rabs (dist a c - dist b c) <= dist a b.
Proof. pose proof (dist_triangle a b c). pose proof (dist_triangle b a c). rewrite (dist_comm b a) in *. apply Rabs_le. lra. Qed.
Lemma flat_cross a r : Rabs (vx a * vy r - vy a * vx r) <= norm a * norm r.
Proof.
  apply Rabs_le. pose proof (cauchy a (V (vy r) (- vx r) 0)) as A. pose proof (cauchy a (V (- vy r) (vx r) 0)) as B.
  assert (N : forall u, (u = V (vy r) (- vx r) 0 \/ u = V (- vy r) (vx r) 0) -> norm u <= norm r).
  { intros u [->| ->]; apply sqrt_le_1_alt; unfold dot; cbn [vx vy vz]; pose proof (Rle_0_sqr (vz r)) as Z; unfold Rsqr in Z; lra. }
  pose proof (N _ (or_introl eq_refl)). pose proof (N _ (or_intror eq_refl)). pose proof (norm_nonneg a).
  unfold dot in A, B. cbn [vx vy vz] in A, B. set (n1 := norm (V (vy r) (- vx r) 0)) in *. set (n2 := norm (V (- vy r) (vx r) 0)) in *. set (p := norm a) in *. set (q := norm r) in *. clearbody n1 n2 p q.
  assert (p * n1 <= p * q) by (apply Rmult_le_compat_l; assumption). assert (p * n2 <= p * q) by (apply Rmult_le_compat_l; assumption). lra.
Qed.

Section Loop.
Variables P W : R -> vec.
Variables v vmin t : R.
Variable rec : vec.
Variable minus : R -> R -> R.
Hypothesis Hv : 0 < vmin /\ vmin <= v /\ v <= 5000.
Hypothesis Hs : slower v P W.
Hypothesis Hmin : forall a, vmin <= norm (W a).
Hypothesis Hr : norm rec <= 10000000.
Hypothesis Hm : subtracts (1 / 10 ^ 9) minus.
Definition K : R := 2 / 10 ^ 5.
Lemma travel_lip a b : Rabs (travel P rec a - travel P rec b) <= K * Rabs (a - b).
Proof.
  destruct Hs as [L _]. specialize (L a b). unfold travel. change earth_rate with OMEGA_EARTH. change light with C_LIGHT. set (p := P a) in *. set (q := P b) in *.
  replace ((dist p rec + OMEGA_EARTH * (vx p * vy rec - vy p * vx rec) / C_LIGHT) / C_LIGHT - (dist q rec + OMEGA_EARTH * (vx q * vy rec - vy q * vx rec) / C_LIGHT) / C_LIGHT)
    with ((dist p rec - dist q rec) * / C_LIGHT + OMEGA_EARTH * / C_LIGHT * / C_LIGHT * (vx (vsub p q) * vy rec - vy (vsub p q) * vx rec)) by (unfold vsub; cbn [vx vy vz]; unfold C_LIGHT; field).
  pose proof (dist_lip p q rec) as D. pose proof (flat_cross (vsub p q) rec) as F. fold (dist p q) in F.
  assert (Dn : 0 <= dist p q) by apply norm_nonneg. pose proof (Rabs_pos (a - b)) as Ab.
  eapply Rle_trans; [apply Rabs_triang|]. rewrite !Rabs_mult. rewrite (Rabs_right (/ C_LIGHT)), (Rabs_right OMEGA_EARTH) by (unfold C_LIGHT, OMEGA_EARTH; lra).
  set (x := Rabs (dist p rec - dist q rec)) in *. set (y := Rabs (vx _ * vy rec - _)) in *. set (z := Rabs (a - b)) in *. set (d := dist p q) in *. set (r := norm rec) in *. clearbody x y z d r.
  assert (d <= 5000 * z) by nra. assert (y <= d * 10000000) by nra. unfold K, C_LIGHT, OMEGA_EARTH. lra.
Qed.
Lemma step s' dt : dt = travel P rec s' - (t - s') -> miss P rec t (minus s' dt) <= 1 / 10 ^ 9 * (1 + K) + K * Rabs dt.
Proof.
  intros E. unfold miss. set (s := minus s' dt). pose proof (Hm s' dt) as M. fold s in M. pose proof (travel_lip s' s) as L.
  replace (t - s - travel P rec s) with ((s' - dt - s) + (travel P rec s' - travel P rec s)) by (rewrite E; ring).
  eapply Rle_trans; [apply Rabs_triang|]. replace (s' - dt - s) with (- (s - (s' - dt))) by ring. rewrite Rabs_Ropp.
  assert (Rabs (s' - s) <= Rabs dt + 1 / 10 ^ 9). { replace (s' - s) with (dt + - (s - (s' - dt))) by ring. eapply Rle_trans; [apply Rabs_triang|]. rewrite Rabs_Ropp. lra. }
  assert (K * Rabs (s' - s) <= K * (Rabs dt + 1 / 10 ^ 9)) by (apply Rmult_le_compat_l; [unfold K; lra|assumption]). lra.
Qed.
Lemma next_dt s : Rabs (travel P rec s - (t - s)) = miss P rec t s.
Proof. unfold miss. rewrite <- Rabs_Ropp. f_equal. ring. Qed.
Definition reached (s : R) (sg : option R) : Prop := (exists s0, sg = Some (computeSagnac (P s0) rec) /\ Rabs (s0 - s) <= 1 / 10 ^ 9 + 1 / 1000 / vmin) /\
  miss P rec t s <= 1 / 10 ^ 9 * (1 + K) + K * (1 / 1000 / vmin).
Lemma loop n : forall fuel s' dt sg, (n <= fuel)%nat -> dt = travel P rec s' - (t - s') -> sg = Some (computeSagnac (P s') rec) -> Rabs dt * v <= 1 / 1000 * 1000 ^ n ->
  exists s out, light_time fuel minus P W t rec false dt (minus s' dt) sg = Some (s, out) /\ reached s out.
Proof.
  assert (Stop : forall fuel s' dt sg, dt = travel P rec s' - (t - s') -> sg = Some (computeSagnac (P s') rec) -> ~ 1 / 1000 < Rabs dt * norm (W (minus s' dt)) ->
    exists s out, light_time fuel minus P W t rec false dt (minus s' dt) sg = Some (s, out) /\ reached s out).
  { intros fuel s' dt sg E Sg N. exists (minus s' dt), sg. split; [destruct fuel; cbn [light_time]; destruct (Rlt_dec _ _); [contradiction|reflexivity|contradiction|reflexivity]|].
    assert (Dt : Rabs dt <= 1 / 1000 / vmin).
    { pose proof (Hmin (minus s' dt)) as H. pose proof (Rabs_pos dt). apply (Rmult_le_reg_r vmin); [lra|]. unfold Rdiv at 1. rewrite Rmult_assoc, Rinv_l by lra. nra. }
    split; [exists s'; split; [exact Sg|]|].
    - pose proof (Hm s' dt) as M. replace (s' - minus s' dt) with (dt + - (minus s' dt - (s' - dt))) by ring. eapply Rle_trans; [apply Rabs_triang|]. rewrite Rabs_Ropp. lra.
    - eapply Rle_trans; [exact (step s' dt E)|]. apply Rplus_le_compat_l. apply Rmult_le_compat_l; [unfold K; lra|exact Dt]. }
  induction n as [| n IH]; intros fuel s' dt sg Hf E Sg B.
  - apply Stop; [exact E|exact Sg|]. destruct Hs as [_ Sp]. pose proof (Sp (minus s' dt)). pose proof (Rabs_pos dt). cbn [pow] in B. nra.
  - destruct (Rlt_dec (1 / 1000) (Rabs dt * norm (W (minus s' dt)))) as [Y|N]; [|apply Stop; assumption].
    destruct fuel as [| fuel]; [lia|]. set (s1 := minus s' dt) in *.
    destruct (IH fuel s1 (travel P rec s1 - (t - s1)) (Some (computeSagnac (P s1) rec)) ltac:(lia) eq_refl eq_refl) as (s & out & L & Rc).
    + rewrite next_dt. pose proof (step s' dt E) as St. fold s1 in St. cbn [pow] in B.
      assert (1 <= 1000 ^ n) by (apply pow_R1_Rle; lra). set (q := 1000 ^ n) in *. clearbody q. set (m := miss P rec t s1) in *. clearbody m. unfold K in St. nra.
    + exists s, out. split; [|exact Rc]. cbn [light_time]. destruct (Rlt_dec _ _) as [_|N]; [|contradiction]. exact L.
Qed.
Lemma update_ok n fuel : (n < fuel)%nat -> Rabs (travel P rec t) * v <= 1 / 1000 * 1000 ^ n ->
  exists s out, update fuel minus P W t rec = Some (s, out) /\ reached s out.
Proof.
  intros Hf B. destruct fuel as [| fuel]; [lia|]. unfold update. cbn [light_time]. destruct (Req_EM_T (norm (W t)) 0) as [Z|_]; [pose proof (Hmin t); lra|].
  destruct (loop n fuel t (travel P rec t - (t - t)) (Some (computeSagnac (P t) rec)) ltac:(lia) eq_refl eq_refl) as (s & out & L & Rc); [replace (travel P rec t - (t - t)) with (travel P rec t) by ring; exact B|].
  exists s, out. split; [exact L|exact Rc].
Qed.
(** There is one time of transmission, and it is near *)
Lemma near s s0 : miss P rec t s0 = 0 -> Rabs (s - s0) <= 2 * miss P rec t s.
Proof.
  intros Z. unfold miss in *. assert (t - s0 = travel P rec s0) as E.
  { destruct (Req_dec (t - s0 - travel P rec s0) 0) as [Q|Q]; [lra|]. apply Rabs_no_R0 in Q. contradiction. }
  pose proof (travel_lip s s0) as L. replace (t - s - travel P rec s) with (- ((s - s0) + (travel P rec s - travel P rec s0))) by lra. rewrite Rabs_Ropp.
  pose proof (Rabs_triang_inv (s - s0) (- (travel P rec s - travel P rec s0))) as I. rewrite Rabs_Ropp in I.
  replace (s - s0 - - (travel P rec s - travel P rec s0)) with (s - s0 + (travel P rec s - travel P rec s0)) in I by ring.
  unfold K in L. pose proof (Rabs_pos (s - s0)). lra.
Qed.
End Loop.

(** A satellite that passes overhead, and one that stands still *)
Definition P_pass (s : R) : vec := V 26000000 (3000 * s) 0.
Definition W_pass (_ : R) : vec := V 0 3000 0.
Definition r_eq : vec := V 6378137 0 0.
Lemma norm_axis x : norm (V x 0 0) = Rabs x /\ norm (V 0 x 0) = Rabs x.
Proof. unfold norm, dot. cbn [vx vy vz]. split; rewrite <- sqrt_Rsqr_abs; f_equal; unfold Rsqr; ring. Qed.
Lemma pass_case : slower 3000 P_pass W_pass /\ (forall a, 3000 <= norm (W_pass a)) /\ norm r_eq <= 10000000 /\ subtracts (1 / 10 ^ 9) Rminus /\ Rabs (travel P_pass r_eq 0) <= 1 / 5.
Proof.
  assert (N : forall a, norm (W_pass a) = 3000) by (intros a; unfold W_pass; rewrite (proj2 (norm_axis 3000)), Rabs_right; lra).
  split; [|split; [|split; [|split]]].
  - split; [|intros a; rewrite N; lra]. intros a b. unfold dist, vsub, P_pass. cbn [vx vy vz]. replace (26000000 - 26000000) with 0 by ring. replace (0 - 0) with 0 by ring.
    rewrite (proj2 (norm_axis _)). replace (3000 * a - 3000 * b) with (3000 * (a - b)) by ring. rewrite Rabs_mult, (Rabs_right 3000) by lra. lra.
  - intros a. rewrite N. lra.
  - unfold r_eq. rewrite (proj1 (norm_axis _)), Rabs_right; lra.
  - intros a d. rewrite Rminus_diag_eq, Rabs_R0 by reflexivity. lra.
  - unfold travel, dist, vsub, P_pass, r_eq. change earth_rate with OMEGA_EARTH. change light with C_LIGHT. cbn [vx vy vz]. replace (3000 * 0 - 0) with 0 by ring. replace (0 - 0) with 0 by ring.
    rewrite (proj1 (norm_axis _)), (Rabs_right (26000000 - 6378137)) by lra. unfold C_LIGHT. rewrite Rabs_right; lra.
Qed.
Definition P_still (_ : R) : vec := V 42164000 0 0.
Definition W_still (_ : R) : vec := V 0 0 0.
Lemma still_case fuel t : update fuel Rminus P_still W_still t r_eq = Some (t, None) /\ 1 / 10 < miss P_still r_eq t t.
Proof.
  split.
  - unfold update. assert (norm (W_still t) = 0) as Z by (unfold W_still; rewrite (proj1 (norm_axis 0)); apply Rabs_R0).
    destruct fuel; cbn [light_time]; destruct (Req_EM_T _ 0) as [_|N]; try contradiction; reflexivity.
  - unfold miss, travel, dist, vsub, P_still, r_eq. change earth_rate with OMEGA_EARTH. change light with C_LIGHT. cbn [vx vy vz]. replace (0 - 0) with 0 by ring. rewrite (proj1 (norm_axis _)), (Rabs_right (42164000 - 6378137)) by lra.
    replace (t - t - _) with (- ((42164000 - 6378137 + OMEGA_EARTH * (42164000 * 0 - 0 * 6378137) / C_LIGHT) / C_LIGHT)) by ring. rewrite Rabs_Ropp. unfold C_LIGHT. rewrite Rabs_right; lra.
Qed.
