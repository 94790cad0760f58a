(** GLONASS: the loop, Runge-Kutta steps and the energy. *)
From Coq Require Import ZArith Reals Lra Lia Psatz List.
From Verif Require Import UtcTimeModel RotModel RotSpec RotProofs RotTrigProofs RotDerivProofs OrbModel OrbSpec OrbKepProofs OrbProofs OrbVelProofs.
Import ListNotations.
Local Open Scope R_scope.

(** ** The loop *)
Definition sum_of (l : list R) : R := fold_right Rplus 0 l.
Lemma integrate_run sg f : sg = 1 \/ sg = -1 -> forall fuel ts d x, 0 <= d <= INR fuel * TSTEP -> d = 0 \/ ts = sg * TSTEP ->
  exists hs, integrate fuel f ts (sg * d) x = Some (run f (map (Rmult sg) hs) x) /\ Forall (fun h => 0 <= h <= TSTEP) hs /\ d - least <= sum_of hs <= d.
Proof.
  intros Hsg. assert (Ab : forall d, 0 <= d -> Rabs (sg * d) = d).
  { intros d D. rewrite Rabs_mult, (Rabs_right d) by lra. destruct Hsg as [->| ->]; [rewrite Rabs_R1|rewrite Rabs_left by lra]; ring. }
  assert (0 < least) as Hl by (unfold least; lra).
  induction fuel as [| fuel IH]; intros ts d x Hd Hts.
  - cbn [INR] in Hd. exists []. cbn [integrate]. rewrite Ab by lra. destruct (Rlt_dec _ _); [lra|]. split; [reflexivity|]. split; [constructor|]. cbn. lra.
  - rewrite S_INR in Hd. cbn [integrate]. rewrite Ab by lra. destruct (Rlt_dec least d) as [L|L].
    + destruct (Rlt_dec d TSTEP) as [S|S].
      * destruct (rk4 f (sg * d) x) as [y|] eqn:E.
        -- destruct (IH (sg * d) 0 y) as (hs & R & F & B); [split; [lra|apply Rmult_le_pos; [apply pos_INR|unfold TSTEP; lra]]|left; reflexivity|].
           exists (d :: hs). replace (sg * d - sg * d) with (sg * 0) by ring. rewrite R. cbn [map run]. rewrite E. split; [reflexivity|]. split; [constructor; [lra|exact F]|]. unfold sum_of in *. cbn [fold_right]. lra.
        -- exists [d]. cbn [map run]. rewrite E. split; [reflexivity|]. split; [constructor; [lra|constructor]|]. unfold sum_of. cbn. lra.
      * destruct Hts as [->| ->]; [unfold least in L; lra|]. destruct (rk4 f (sg * TSTEP) x) as [y|] eqn:E.
        -- destruct (IH (sg * TSTEP) (d - TSTEP) y) as (hs & R & F & B); [lra|right; reflexivity|].
           exists (TSTEP :: hs). replace (sg * d - sg * TSTEP) with (sg * (d - TSTEP)) by ring. rewrite R. cbn [map run]. rewrite E. split; [reflexivity|]. split; [constructor; [unfold TSTEP; lra|exact F]|]. unfold sum_of in *. cbn [fold_right]. lra.
        -- destruct (IH (sg * TSTEP) (d - TSTEP) x) as (hs & R & F & B); [lra|right; reflexivity|].
           exists (TSTEP :: hs). cbn [map run]. rewrite E. split; [reflexivity|]. split; [constructor; [unfold TSTEP; lra|exact F]|]. unfold sum_of in *. cbn [fold_right]. lra.
    + exists []. split; [reflexivity|]. split; [constructor|]. cbn. lra.
Qed.
Lemma integrate_ends f dt x : exists n hs, let sg := if Rlt_dec dt 0 then -1 else 1 in
  Forall (fun h => 0 <= h <= TSTEP) hs /\ Rabs dt - least <= sum_of hs <= Rabs dt /\
  forall fuel, (n <= fuel)%nat -> integrate fuel f (if Rlt_dec dt 0 then - TSTEP else TSTEP) dt x = Some (run f (map (Rmult sg) hs) x).
Proof.
  destruct (archimed (Rabs dt / TSTEP)) as [Up _]. pose proof (Rabs_pos dt) as P.
  set (n := Z.to_nat (up (Rabs dt / TSTEP))). exists n.
  assert (Hn : Rabs dt <= INR n * TSTEP).
  { unfold n. rewrite INR_IZR_INZ, Z2Nat.id.
    - unfold TSTEP in *. apply Rmult_le_reg_r with (/ 60); [lra|]. replace (IZR (up (Rabs dt / 60)) * 60 * / 60) with (IZR (up (Rabs dt / 60))) by field. unfold Rdiv in *. lra.
    - apply le_IZR. assert (0 <= Rabs dt / TSTEP) by (unfold TSTEP, Rdiv; lra). lra. }
  set (sg := if Rlt_dec dt 0 then -1 else 1).
  assert (Hsg : sg = 1 \/ sg = -1) by (unfold sg; destruct (Rlt_dec dt 0); auto).
  assert (Ed : dt = sg * Rabs dt) by (unfold sg; destruct (Rlt_dec dt 0); [rewrite Rabs_left by lra|rewrite Rabs_right by lra]; ring).
  assert (Et : (if Rlt_dec dt 0 then - TSTEP else TSTEP) = sg * TSTEP) by (unfold sg; destruct (Rlt_dec dt 0); ring).
  rewrite Et. clearbody sg.
  assert (Stable : forall fuel ts d x y, integrate fuel f ts d x = Some y -> forall fuel', (fuel <= fuel')%nat -> integrate fuel' f ts d x = Some y).
  { clear. induction fuel as [| fuel IH]; intros ts d x y H fuel' L.
    - cbn [integrate] in H. destruct (Rlt_dec _ _) eqn:E; [discriminate|]. destruct fuel'; cbn [integrate]; rewrite E; exact H.
    - destruct fuel' as [| fuel']; [lia|]. cbn [integrate] in *. destruct (Rlt_dec _ _); [|exact H]. destruct (rk4 _ _ _); [|exact H]. apply IH with (1 := H). lia. }
  destruct (integrate_run sg f Hsg n (sg * TSTEP) (Rabs dt) x (conj P Hn) (or_intror eq_refl)) as (hs & R & F & B).
  exists hs. split; [exact F|]. split; [exact B|]. intros fuel L. rewrite Ed at 1. apply (Stable n); assumption.
Qed.

(** ** Runge-Kutta on linear equations *)
Lemma st_eq (a b : st) : vx (fst a) = vx (fst b) -> vy (fst a) = vy (fst b) -> vz (fst a) = vz (fst b) ->
  vx (snd a) = vx (snd b) -> vy (snd a) = vy (snd b) -> vz (snd a) = vz (snd b) -> a = b.
Proof. destruct a as [[a1 a2 a3] [a4 a5 a6]], b as [[b1 b2 b3] [b4 b5 b6]]. cbn. congruence. Qed.
Definition additive (k : st -> R) : Prop := (forall a b, k (sadd a b) = k a + k b) /\ forall c a, k (sscale c a) = c * k a.
Lemma coordinates : additive (fun a => vx (fst a)) /\ additive (fun a => vy (fst a)) /\ additive (fun a => vz (fst a)) /\
  additive (fun a => vx (snd a)) /\ additive (fun a => vy (snd a)) /\ additive (fun a => vz (snd a)).
Proof. repeat split. Qed.
Lemma rk4_linear (L : st -> st) (c : st) h x :
  (forall a b, L (sadd a b) = sadd (L a) (L b)) -> (forall k a, L (sscale k a) = sscale k (L a)) ->
  let g := fun y => sadd (L y) c in
  rk4 (fun y => Some (g y)) h x =
    Some (sadd x (sadd (sscale h (g x)) (sadd (sscale (h ^ 2 / 2) (L (g x))) (sadd (sscale (h ^ 3 / 6) (L (L (g x)))) (sscale (h ^ 4 / 24) (L (L (L (g x))))))))).
Proof.
  intros La Ls g. unfold rk4. cbn [bind]. f_equal.
  assert (G : forall y d, g (sadd y d) = sadd (g y) (L d)).
  { intros y d. unfold g. rewrite La. destruct coordinates as ((A1 & _) & (A2 & _) & (A3 & _) & (A4 & _) & (A5 & _) & (A6 & _)). apply st_eq; rewrite ?A1, ?A2, ?A3, ?A4, ?A5, ?A6; ring. }
  rewrite !G. set (k := g x). clearbody k. repeat (rewrite Ls || rewrite La).
  set (k1 := L k). set (k2 := L k1). set (k3 := L k2). clearbody k1 k2 k3.
  assert (H : forall q, additive q -> q (sadd x (sscale (h / 6) (sadd (sadd (sadd k (sscale 2 (sadd k (sscale (h / 2) k1)))) (sscale 2 (sadd k (sscale (h / 2) (sadd k1 (sscale (h / 2) k2))))))
    (sadd k (sscale h (sadd k1 (sscale (h / 2) (sadd k2 (sscale (h / 2) k3)))))))))
    = q (sadd x (sadd (sscale h k) (sadd (sscale (h ^ 2 / 2) k1) (sadd (sscale (h ^ 3 / 6) k2) (sscale (h ^ 4 / 24) k3)))))).
  { intros q [Qa Qs]. repeat (rewrite Qa || rewrite Qs). field. }
  destruct coordinates as (A1 & A2 & A3 & A4 & A5 & A6).
  apply st_eq; [exact (H _ A1)|exact (H _ A2)|exact (H _ A3)|exact (H _ A4)|exact (H _ A5)|exact (H _ A6)].
Qed.

(** ** The energy *)
Lemma vderiv_dot f g x a b : vderiv f x a -> vderiv g x b -> derivable_pt_lim (fun s => dot (f s) (g s)) x (dot a (g x) + dot (f x) b).
Proof.
  intros (A1 & A2 & A3) (B1 & B2 & B3). unfold dot. eapply lim_to; [apply dplus; [apply dplus; apply dmult; eassumption|apply dmult; eassumption]|]. cbv beta. ring.
Qed.
Lemma dsqrt f x a : 0 < f x -> derivable_pt_lim f x a -> derivable_pt_lim (fun s => sqrt (f s)) x (/ (2 * sqrt (f x)) * a).
Proof. intros P H. exact (derivable_pt_lim_comp f sqrt x _ _ H (derivable_pt_lim_sqrt (f x) P)). Qed.
Lemma dinv f x a : f x <> 0 -> derivable_pt_lim f x a -> derivable_pt_lim (fun s => / f s) x (- a / (f x * f x)).
Proof.
  intros N H. pose proof (derivable_pt_lim_div (fun _ => 1) f x 0 a (dconst 1 x) H N) as D.
  eapply lim_ext; [|eapply lim_to; [exact D|]]; [intros s; unfold div_fct, Rdiv; ring|]. unfold Rsqr. field. exact N.
Qed.
Lemma inverse_norm P t v : 0 < dot (P t) (P t) -> vderiv P t v -> derivable_pt_lim (fun s => / norm (P s)) t (- dot (P t) v * (/ norm (P t)) ^ 3).
Proof.
  intros Pp D. unfold norm. assert (0 < sqrt (dot (P t) (P t))) as S by (apply sqrt_lt_R0; exact Pp).
  eapply lim_to; [apply dinv; [apply Rgt_not_eq; exact S|apply dsqrt; [exact Pp|apply vderiv_dot; exact D]]|]. cbv beta.
  replace (dot v (P t)) with (dot (P t) v) by (unfold dot; ring). field. lra.
Qed.
(** The potential through the inverse distance *)
Definition kap : R := MU_GLO * J2_GLO * RE_GLO ^ 2 / 2.
Lemma potential_inv p : potential p = - MU_GLO * / norm p + kap * (3 * (vz p * vz p) * (/ norm p) ^ 5 - (/ norm p) ^ 3).
Proof. unfold potential, kap, Rdiv. change pz90_gm with MU_GLO. change pz90_j2 with J2_GLO. change pz90_radius with RE_GLO. ring. Qed.
Lemma orbit_inv acc p v d : glonassOrbit acc (p, v) = Some (v, d) -> 0 < dot p p /\ let u := / norm p in
  let c := - MU_GLO * u ^ 3 - 3 * kap * u ^ 5 * (1 - 5 * (vz p * vz p) * u ^ 2) in
  d = V ((c + OMGE_GLO * OMGE_GLO) * vx p + 2 * OMGE_GLO * vy v + vx acc) ((c + OMGE_GLO * OMGE_GLO) * vy p - 2 * OMGE_GLO * vx v + vy acc) ((c - 2 * (3 * kap * u ^ 5)) * vz p + vz acc).
Proof.
  unfold glonassOrbit. cbn [fst snd]. destruct (Req_EM_T _ _) as [Z|Z]; [discriminate|]. cbv zeta. intros H. injection H as <-.
  pose proof (dot_nonneg p) as N. assert (0 < dot p p) as Pp by lra. split; [exact Pp|].
  assert (0 < norm p) as Np by (apply sqrt_lt_R0; exact Pp). assert (E : dot p p = norm p * norm p) by (symmetry; apply sqrt_sqrt; lra).
  rewrite E, sqrt_square by lra. set (r := norm p) in *. clearbody r. unfold kap. f_equal; field; lra.
Qed.
Lemma energy_rate acc P W t : moves acc P W -> derivable_pt_lim (fun s => energy acc (P s, W s)) t 0.
Proof.
  intros M. destruct (M t) as (d & G & DP & DW). destruct (orbit_inv _ _ _ _ G) as [Pp Ed]. cbv zeta in Ed.
  pose proof (inverse_norm P t (W t) Pp DP) as Du. pose proof (vderiv_dot W W t d d DW DW) as DV.
  pose proof (vderiv_dot (fun _ => acc) P t (V 0 0 0) (W t)) as DA. cbv beta in DA.
  specialize (DA ltac:(unfold vderiv; cbn [vx vy vz]; split; [|split]; apply dconst) DP).
  destruct DP as (Dx & Dy & Dz).
  set (u := fun s => / norm (P s)) in *. change (/ norm (P t)) with (u t) in *.
  apply (lim_ext (fun s => dot (W s) (W s) * / 2 - OMGE_GLO * OMGE_GLO * / 2 * (vx (P s) * vx (P s) + vy (P s) * vy (P s))
    + (- MU_GLO * u s + kap * (3 * (vz (P s) * vz (P s)) * (u s * u s * u s * u s * u s) - u s * u s * u s)) - dot acc (P s))).
  { intros s. unfold energy. change pz90_rate with OMGE_GLO. cbn [fst snd]. rewrite potential_inv. fold (u s). field. }
  eapply lim_to.
  { apply dminus; [apply dplus; [apply dminus; [apply dmult; [exact DV|apply dconst]|apply dmult; [apply dconst|apply dplus; apply dmult; [exact Dx|exact Dx|exact Dy|exact Dy]]]|
      apply dplus; [apply dmult; [apply dconst|exact Du]|apply dmult; [apply dconst|apply dminus;
        [apply dmult; [apply dmult; [apply dconst|apply dmult; exact Dz]|apply dmult; [apply dmult; [apply dmult; [apply dmult; exact Du|exact Du]|exact Du]|exact Du]]|apply dmult; [apply dmult; exact Du|exact Du]]]]]|exact DA]. }
  cbv beta. rewrite Ed. set (q := u t) in *. clearbody q. clear. unfold dot in *. cbn [vx vy vz].
  destruct (P t) as [x y z], (W t) as [a b c], acc as [k l m]. cbn [vx vy vz] in *.
  generalize kap MU_GLO OMGE_GLO. intros kk mu om. field.
Qed.
Lemma zero_rate_constant f : (forall t, derivable_pt_lim f t 0) -> forall a b, f a = f b.
Proof.
  intros D. assert (forall a b, a < b -> f a = f b) as H.
  { intros a b L. destruct (MVT_cor2 f (fun _ => 0) a b L ltac:(intros; apply D)) as (c & E & _). lra. }
  intros a b. destruct (Rtotal_order a b) as [L|[->|L]]; [auto|reflexivity|symmetry; auto].
Qed.
Lemma energy_constant acc P W a b : moves acc P W -> energy acc (P a, W a) = energy acc (P b, W b).
Proof. intros M. apply (zero_rate_constant (fun s => energy acc (P s, W s))). intros t. apply energy_rate. exact M. Qed.

(** A circular orbit in the plane of the equator *)
Section Circular.
Variable r : R.
Hypothesis Hr : 0 < r.
Definition pull : R := MU_GLO * (/ r) ^ 3 + 3 * kap * (/ r) ^ 5.
Definition speed : R := sqrt pull - OMGE_GLO.
Definition circle (t : R) : vec := V (r * cos (speed * t)) (r * sin (speed * t)) 0.
Definition circle_v (t : R) : vec := V (- (r * speed) * sin (speed * t)) (r * speed * cos (speed * t)) 0.
Lemma pull_pos : 0 < pull.
Proof.
  unfold pull, kap, MU_GLO, J2_GLO, RE_GLO. pose proof (Rinv_0_lt_compat r Hr) as I.
  apply Rplus_lt_0_compat; [apply Rmult_lt_0_compat; [lra|apply pow_lt; exact I]|apply Rmult_lt_0_compat; [lra|apply pow_lt; exact I]].
Qed.
Lemma circle_moves : moves (V 0 0 0) circle circle_v.
Proof.
  intros t. pose proof (sc1 (speed * t)) as T.
  assert (E : dot (circle t) (circle t) = r * r).
  { unfold dot, circle. cbn [vx vy vz]. transitivity (r * r * (cos (speed * t) * cos (speed * t) + sin (speed * t) * sin (speed * t))); [ring|]. rewrite T. ring. }
  assert (Rr : 0 < r * r) by (apply Rmult_lt_0_compat; exact Hr).
  exists (V (- (r * (speed * speed)) * cos (speed * t)) (- (r * (speed * speed)) * sin (speed * t)) 0).
  assert (D : derivable_pt_lim (fun s => speed * s) t speed) by (eapply lim_to; [apply dmult; [apply dconst|apply did]|cbv beta; ring]).
  split; [|split].
  - unfold glonassOrbit. cbn [fst snd]. rewrite E. destruct (Req_EM_T _ _) as [Z|_]; [lra|]. cbv zeta. rewrite sqrt_square by lra. f_equal. f_equal.
    assert (Q : speed * speed = pull - 2 * OMGE_GLO * speed - OMGE_GLO * OMGE_GLO).
    { unfold speed. assert (sqrt pull * sqrt pull = pull) as S by (apply sqrt_sqrt; left; apply pull_pos). set (k := sqrt pull) in *. clearbody k. rewrite <- S. ring. }
    rewrite Q. unfold circle, circle_v. cbn [vx vy vz]. unfold pull, kap. f_equal; field; lra.
  - unfold vderiv, circle, circle_v. cbn [vx vy vz]. split; [|split].
    + eapply lim_to; [apply dmult; [apply dconst|apply dcos; exact D]|cbv beta; ring].
    + eapply lim_to; [apply dmult; [apply dconst|apply dsin; exact D]|cbv beta; ring].
    + apply dconst.
  - unfold vderiv, circle, circle_v. cbn [vx vy vz]. split; [|split].
    + eapply lim_to; [apply dmult; [apply dconst|apply dsin; exact D]|cbv beta; ring].
    + eapply lim_to; [apply dmult; [apply dconst|apply dcos; exact D]|cbv beta; ring].
    + apply dconst.
Qed.
End Circular.
