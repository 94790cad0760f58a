(** Proofs that the Jacobians returned by the logarithms of matrices are their derivatives *)
From Coq Require Import Reals Lra Psatz.
From Verif Require Import RotModel RotSpec RotTrigProofs RotProofs RotExpProofs RotMatProofs RotPiProofs RotDqProofs RotLogProofs RotDerivProofs OrbVelProofs OrbGloProofs ImuSpec ImuResProofs EkfSpec EkfProofs EkfDynProofs JacModel JacSpec JacProofs JacExpProofs JacLogProofs.
Local Open Scope R_scope.

Lemma der_acos f : -1 < f 0 < 1 -> der f -> der (fun s => acos (f s)).
Proof.
  intros P D. apply (der_near (fun s => PI / 2 - atan (f s / sqrt (1 - f s * f s)))).
  - destruct (near_and _ _ (near_pos f (-1) D ltac:(lra)) (near_neg f 1 D ltac:(lra))) as (r & R & H). exists r. split; [exact R|]. intros s S. destruct (H s S). unfold acos.
    destruct (Rle_dec (f s) (-1)); [lra|]. destruct (Rle_dec 1 (f s)); [lra|]. reflexivity.
  - assert (Q : 0 < 1 - f 0 * f 0) by nra. apply der_minus; [apply der_const|]. apply der_atan. apply der_div; [|exact D|apply (der_sqrt (fun s => 1 - f s * f s)); [exact Q|apply der_minus; [apply der_const|apply der_mult; exact D]]].
    pose proof (sqrt_lt_R0 _ Q). lra.
Qed.
Definition lm (m : mat) : vec := let th := acos ((trace m - 1) / 2) in vscale (th / (2 * sin th)) (axial m).
Definition middle (m : mat) : Prop := -1 + eps8 < trace m < 3 - eps8.
Lemma lm_facts m : rotation m -> middle m ->
  so_log m = Some (lm m) /\ 0 < norm (lm m) < PI /\ mf (lm m) = m /\ trace m = 1 + 2 * cos (norm (lm m)) /\
  let E := ijac3 (- (1 / 2)) (ce (norm (lm m))) (lm m) in so_log_jac m = Some (lm m, E) /\ mmul E (jl (lm m)) = mid /\ mmul (jl (lm m)) E = mid.
Proof.
  intros H T. destruct (so_log_mid m H T) as (k' & t' & K' & TB' & E' & X'). destruct (so_log_jac_mid m H T) as (k & t & K & TB & E & X).
  assert (SL : so_log m = Some (lm m)).
  { unfold so_log in X' |- *. cbv zeta in *. unfold middle, eps8 in *. destruct (Rle_dec _ _); [lra|]. destruct (Rlt_dec _ _) as [_|]; [|lra]. unfold div in *. destruct (Req_EM_T _ 0); [discriminate X'|]. unfold bind, lm. reflexivity. }
  assert (L : lm m = vscale t k).
  { unfold so_log_jac in X. unfold so_log in SL. cbv zeta in X, SL. unfold middle, eps8 in *. destruct (Rle_dec _ _); [lra|]. destruct (Rlt_dec _ _) as [_|]; [|lra]. unfold div in X, SL.
    destruct (Req_EM_T (acos ((trace m - 1) / 2)) 0); [discriminate X|]. destruct (Req_EM_T (acos ((trace m - 1) / 2) * acos ((trace m - 1) / 2)) 0); [discriminate X|].
    unfold bind in X, SL. destruct (Req_EM_T (2 * sin (acos ((trace m - 1) / 2))) 0); [discriminate X|]. destruct (Req_EM_T _ 0); [discriminate X|]. congruence. }
  assert (N : norm (lm m) = t) by (rewrite L; apply norm_vscale_unit; [exact K|lra]). rewrite N. split; [exact SL|]. split; [exact TB|]. split.
  - apply mat_turn_unique with k t; [|exact E]. intros v. unfold mf, qf. rewrite N, L. rewrite turnq_mat by (replace (vscale (/ t) (vscale t k)) with k; [exact K|destruct k as [k1 k2 k3]; unfold vscale; cbn [vx vy vz]; f_equal; field; lra]).
    f_equal. destruct k as [k1 k2 k3]; unfold vscale; cbn [vx vy vz]; f_equal; field; lra.
  - split; [rewrite <- (trace_turnq k t K); f_equal; apply mat_turn_unique with k t; [exact E|intros v; apply turnq_mat, K]|]. cbv zeta. rewrite L at 1 3. split; [rewrite X, L; reflexivity|].
    assert (S : 0 < sin t) by (apply sin_gt_0; lra). pose proof (jac_pair k t K ltac:(lra) ltac:(lra)) as J. cbv zeta in J. rewrite <- L in *. unfold jl. rewrite N. exact J.
Qed.
Lemma entries (c : R -> mat) a b z : vderiv (fun s => mapply (c s) ex) 0 a -> vderiv (fun s => mapply (c s) ey) 0 b -> vderiv (fun s => mapply (c s) ez) 0 z ->
  (der (fun s => m00 (c s)) /\ der (fun s => m10 (c s)) /\ der (fun s => m20 (c s))) /\ (der (fun s => m01 (c s)) /\ der (fun s => m11 (c s)) /\ der (fun s => m21 (c s))) /\ (der (fun s => m02 (c s)) /\ der (fun s => m12 (c s)) /\ der (fun s => m22 (c s))).
Proof.
  assert (H : forall f g : R -> R, (forall s, f s = g s) -> der f -> der g) by (intros f g E; apply der_near; exists 1; split; [lra|]; intros s _; apply E).
  intros A B C. assert (VA : vder (fun s => mapply (c s) ex)) by (eexists; exact A). assert (VB : vder (fun s => mapply (c s) ey)) by (eexists; exact B). assert (VC : vder (fun s => mapply (c s) ez)) by (eexists; exact C).
  repeat split; [eapply H; [|apply (vder_x _ VA)]|eapply H; [|apply (vder_y _ VA)]|eapply H; [|apply (vder_z _ VA)]|eapply H; [|apply (vder_x _ VB)]|eapply H; [|apply (vder_y _ VB)]|eapply H; [|apply (vder_z _ VB)]|eapply H; [|apply (vder_x _ VC)]|eapply H; [|apply (vder_y _ VC)]|eapply H; [|apply (vder_z _ VC)]];
    intros s; unfold mapply, ex, ey, ez; cbn [vx vy vz]; ring.
Qed.
Lemma lm_vder c m d : so_curve c m d -> middle m -> rotation m -> vder (fun s => lm (c s)) /\ der (fun s => trace (c s)).
Proof.
  intros [C0 C] T H. destruct (entries c _ _ _ (C ex) (C ey) (C ez)) as ((A1 & A2 & A3) & (B1 & B2 & B3) & (C1 & C2 & C3)).
  assert (DT : der (fun s => trace (c s))) by (unfold trace; apply der_plus; [apply der_plus|]; assumption). split; [|exact DT].
  destruct (lm_facts m H T) as (_ & P & _ & TR & _). unfold lm. cbv zeta.
  assert (DC : der (fun s => acos ((trace (c s) - 1) / 2))). { apply (der_acos (fun s => (trace (c s) - 1) / 2)); [rewrite C0; unfold middle, eps8 in T; lra|]. apply der_div; [lra|apply der_minus; [exact DT|apply der_const]|apply der_const]. }
  apply vder_scale.
  - apply der_div; [|exact DC|apply der_mult; [apply der_const|apply der_sin; exact DC]]. rewrite C0, TR. replace ((1 + 2 * cos (norm (lm m)) - 1) / 2) with (cos (norm (lm m))) by field. rewrite acos_cos_pi by lra. pose proof (sin_gt_0 (norm (lm m)) ltac:(lra) ltac:(lra)). lra.
  - unfold axial. apply vder_parts; cbn [vx vy vz]; apply der_minus; assumption.
Qed.
Lemma cross_inj a b : (forall v, cross a v = cross b v) -> a = b.
Proof.
  intros H. pose proof (H ex) as X. pose proof (H ey) as Y. destruct a as [a1 a2 a3], b as [b1 b2 b3]. unfold cross, ex, ey in *. cbn [vx vy vz] in *. injection X as _ X2 X3. injection Y as Y1 _ Y3. f_equal; lra.
Qed.
Lemma nearly_so c c' m d : nearly c c' -> so_curve c m d -> so_curve c' m d.
Proof. intros N [A B]. split; [rewrite <- (nearly_at _ _ N); exact A|]. intros y. apply (nearly_vderiv _ _ _ (nearly_map (fun m => mapply m y) _ _ N)), B. Qed.
Lemma rot_onto m v : rotation m -> exists y, mapply m y = v.
Proof. intros H. destruct (rotation_turnq m H) as (k & t & K & _ & E). pose proof (axq_unit k (t / 2) K) as U. exists (rotp (turnq k (t / 2)) v). rewrite E, <- rota_matrix. apply rota_rotp, U. Qed.
Lemma so_unique c m d d' : rotation m -> so_curve c m d -> so_curve c m d' -> d = d'.
Proof. intros H [_ A] [_ B]. apply cross_inj. intros v. destruct (rot_onto m v H) as [y <-]. exact (vderiv_unique _ _ _ _ (A y) (B y)). Qed.
Lemma middle_near c m d : so_curve c m d -> middle m -> rotation m -> exists r, 0 < r /\ forall s, Rabs s < r -> middle (c s).
Proof. intros C T H. destruct (lm_vder c m d C T H) as [_ D]. assert (C0 : c 0 = m) by apply C. unfold middle in *. apply near_and; [apply (near_pos _ _ D)|apply (near_neg _ _ D)]; rewrite C0; apply T. Qed.
Lemma so_log_jac_deriv c m d : (forall s, rotation (c s)) -> so_curve c m d -> middle m ->
  exists w J g, so_log_jac m = Some (w, J) /\ so_log m = Some w /\ follows (fun s => so_log (c s)) g /\ g 0 = w /\ vderiv g 0 (mapply J d).
Proof.
  intros RT C T. assert (C0 : c 0 = m) by apply C. assert (H : rotation m) by (rewrite <- C0; apply RT). destruct (lm_facts m H T) as (SL & P & MF & _ & SJ & E1 & E2). destruct (middle_near c m d C T H) as (r & R & N).
  do 2 eexists. exists (fun s => lm (c s)). split; [exact SJ|]. split; [exact SL|]. split; [exists r; split; [exact R|]; intros s S; exact (proj1 (lm_facts (c s) (RT s) (N s S)))|]. split; [rewrite C0; reflexivity|].
  destruct (lm_vder c m d C T H) as [[u D] _]. assert (P0 : 0 < norm ((fun s => lm (c s)) 0)) by (cbv beta; rewrite C0; apply P). pose proof (mf_curve (fun s => lm (c s)) u P0 D) as Q. cbv beta in Q. rewrite C0, MF in Q.
  assert (NC : nearly (fun s => mf (lm (c s))) c) by (exists r; split; [exact R|]; intros s S; exact (proj1 (proj2 (proj2 (lm_facts (c s) (RT s) (N s S)))))).
  apply (nearly_so _ _ _ _ NC) in Q. pose proof (so_unique c m _ _ H C Q) as X. rewrite <- (inv_speed _ _ _ _ E1 X). exact D.
Qed.
(** ** SE3 *)
Definition ls (x : se3) : tan := let w := lm (rot x) in T w (mapply (ijac3 (- (1 / 2)) (ce (norm w)) w) (tr x)).
Definition inner (m : mat) : Prop := -1 + eps8 < trace m < 3 - e4.
Lemma inner_middle m : inner m -> middle m.
Proof. unfold inner, middle, e4, eps8. lra. Qed.
Lemma inner_angle m : rotation m -> inner m -> e4 <= norm (lm m) * norm (lm m).
Proof.
  intros H T. destruct (lm_facts m H (inner_middle m T)) as (_ & TB & _ & TR & _). set (t := norm (lm m)) in *. unfold inner, e4, eps8 in *. destruct (Rlt_le_dec t 2) as [L|L]; [|nra]. pose proof (cos_taylor t ltac:(lra)) as C.
  assert (0 <= t ^ 4) by (apply pow_le; lra). assert (t ^ 6 <= 4 * t ^ 4). { replace (t ^ 6) with (t * t * t ^ 4) by ring. apply Rmult_le_compat_r; nra. } cbn [pow] in *. lra.
Qed.
Lemma se_log_ls x : rotation (rot x) -> inner (rot x) -> let E := ijac3 (- (1 / 2)) (ce (norm (lm (rot x)))) (lm (rot x)) in
  se_log x = Some (ls x) /\ se_log_jac x = Some (ls x, e6 true E (ls x)) /\ sf (ls x) = x /\ mmul E (jl (lm (rot x))) = mid.
Proof.
  intros H T E. destruct (lm_facts _ H (inner_middle _ T)) as (SL & P & MF & _ & SJ & E1 & E2). fold E in SJ, E1, E2. pose proof (inner_angle _ H T) as A. set (w := lm (rot x)) in *. set (t := norm w) in *.
  assert (TL : ~ t < 1 / 10000) by (unfold e4 in A; nra). assert (SP : 0 < sin t) by (apply sin_gt_0; lra). pose proof (sin_ca t P) as SC. assert (NS : dot w w = t * t) by (unfold t; symmetry; apply norm_sq).
  assert (CE : (cb t * (1 / 2) - cc t) / ca t = ce t) by (unfold ce, cb, cc, ca; field; lra).
  assert (V : forall e, e = ce t -> vadd (vsub (tr x) (vscale (1 / 2) (cross w (tr x)))) (vscale e (cross w (cross w (tr x)))) = mapply E (tr x)).
  { intros e ->. unfold E. fold t. rewrite mapply_ijac3. generalize (cross w (cross w (tr x))) (cross w (tr x)). intros [g1 g2 g3] [h1 h2 h3]. destruct (tr x) as [x1 x2 x3]. unfold vadd, vsub, vscale. cbn [vx vy vz]. f_equal; ring. }
  split; [|split; [|split; [|exact E1]]].
  - unfold se_log. rewrite SL. unfold bind at 1. cbv zeta. fold (norm w). fold t. destruct (Rlt_dec t (1 / 10000)); [lra|]. rewrite NS. unfold div. destruct (Req_EM_T t 0); [lra|]. destruct (Req_EM_T (t * t) 0); [nra|]. unfold bind.
    fold (ca t). fold (cb t). fold (cc t). destruct (Req_EM_T (ca t) 0) as [Z|_]; [unfold ca in Z; rewrite Z in SC; lra|]. rewrite (V _ CE). reflexivity.
  - unfold se_log_jac. rewrite SJ. unfold bind at 1. cbv zeta. cbn [fst snd]. fold (norm w). fold t. destruct (Rlt_dec t (1 / 10000)); [lra|]. rewrite NS, jac_terms_exact by lra. unfold bind, div.
    destruct (Req_EM_T (ca t) 0) as [Z|_]; [unfold ca in Z; rewrite Z in SC; lra|]. rewrite (V _ CE). reflexivity.
  - unfold sf, ls. cbv zeta. cbn [ang lin]. fold w. fold t. fold E. rewrite MF, <- mapply_mmul, E2, mapply_mid. destruct x; reflexivity.
Qed.
Lemma nearly_se c c' m d : nearly c c' -> se_curve c m d -> se_curve c' m d.
Proof. intros N [A B]. split; [rewrite <- (nearly_at _ _ N); exact A|]. intros y. apply (nearly_vderiv _ _ _ (nearly_map (fun m => se_transformp m y) _ _ N)), B. Qed.
Lemma se_unique c m d d' : rotation (rot m) -> se_curve c m d -> se_curve c m d' -> d = d'.
Proof.
  intros H [_ A] [_ B]. assert (X : forall v, vadd (cross (ang d) v) (lin d) = vadd (cross (ang d') v) (lin d')).
  { intros v. destruct (rot_onto (rot m) (vsub v (tr m)) H) as [y Y]. pose proof (vderiv_unique _ _ _ _ (A y) (B y)) as Z. unfold se_transformp in Z. rewrite Y in Z. replace (vadd (vsub v (tr m)) (tr m)) with v in Z; [exact Z|]. destruct v as [v1 v2 v3], (tr m) as [t1 t2 t3]. unfold vadd, vsub. cbn [vx vy vz]. f_equal; ring. }
  destruct d as [[a1 a2 a3] [l1 l2 l3]], d' as [[b1 b2 b3] [k1 k2 k3]]. cbn [ang lin] in X. pose proof (X (V 0 0 0)) as X0. pose proof (X ex) as X1. pose proof (X ey) as X2. unfold ex, ey, vadd, cross in *. cbn [vx vy vz] in *.
  injection X0 as P1 P2 P3. injection X1 as Q1 Q2 Q3. injection X2 as R1 R2 R3. f_equal; f_equal; lra.
Qed.
Lemma se_parts c x d : se_curve c x d -> so_curve (fun s => rot (c s)) (rot x) (ang d) /\ vder (fun s => tr (c s)).
Proof.
  intros [C0 C]. assert (Z : forall m, mapply m vz0 = vz0) by (intros m; apply mapply_vz0). assert (T0 : forall s, se_transformp (c s) vz0 = tr (c s)) by (intros s; unfold se_transformp; rewrite Z; destruct (tr (c s)) as [a b z]; unfold vadd, vz0; cbn [vx vy vz]; f_equal; ring).
  pose proof (vderiv_ext _ _ _ _ T0 (C vz0)) as DT. split; [|eexists; exact DT]. split; [rewrite C0; reflexivity|]. intros y.
  eapply vderiv_ext; [|eapply vderiv_to; [exact (vderiv_sub _ _ _ _ _ (C y) DT)|]].
  - intros s. cbv beta. unfold se_transformp. generalize (mapply (rot (c s)) y) (tr (c s)). intros [a1 a2 a3] [b1 b2 b3]. unfold vadd, vsub. cbn [vx vy vz]. f_equal; ring.
  - unfold se_transformp. rewrite Z. generalize (mapply (rot x) y) (tr x) (ang d) (lin d). intros [a1 a2 a3] [b1 b2 b3] [e1 e2 e3] [f1 f2 f3]. unfold vadd, vsub, cross, vz0. cbn [vx vy vz]. f_equal; ring.
Qed.
Lemma ce_der f : 0 < f 0 < PI -> der f -> der (fun s => ce (f s)).
Proof.
  intros P D. assert (S : 0 < sin (f 0)) by (apply sin_gt_0; lra). pose proof (sin_ca (f 0) P) as SC. unfold ce, cb, cc, ca.
  assert (A : der (fun s => sin (f s) / f s)) by (apply der_div; [lra|apply der_sin; exact D|exact D]). assert (DD : der (fun s => f s * f s)) by (apply der_mult; exact D).
  apply der_div; [exact SC| |apply der_mult; [apply der_const|exact A]]. apply der_minus; [|apply der_mult; [apply der_const|]]; (apply der_div; [nra| |exact DD]); apply der_minus; try apply der_const; [apply der_cos; exact D|exact A].
Qed.
Lemma se_log_jac_deriv c x d : (forall s, rotation (rot (c s))) -> se_curve c x d -> inner (rot x) ->
  exists y J g, se_log_jac x = Some (y, J) /\ se_log x = Some y /\ follows (fun s => se_log (c s)) g /\ tcurve g y (m6apply J d).
Proof.
  intros RT C IN. assert (C0 : c 0 = x) by apply C. assert (H : rotation (rot x)) by (rewrite <- C0; apply RT). destruct (se_log_ls x H IN) as (SL & SJ & SF & E1). destruct (se_parts c x d C) as [CR DT].
  pose proof (inner_middle _ IN) as T'. destruct (lm_vder _ _ _ CR T' H) as [DW DTr].
  assert (NR : exists r, 0 < r /\ forall s, Rabs s < r -> inner (rot (c s))) by (unfold inner in *; apply near_and; [apply (near_pos _ _ DTr)|apply (near_neg _ _ DTr)]; cbv beta; rewrite C0; apply IN).
  destruct NR as (r & R & N). do 2 eexists. exists (fun s => ls (c s)). split; [exact SJ|]. split; [exact SL|]. split; [exists r; split; [exact R|]; intros s S; exact (proj1 (se_log_ls (c s) (RT s) (N s S)))|].
  destruct (lm_facts _ H T') as (_ & P & _).
  assert (DV : vder (fun s => lin (ls (c s)))).
  { assert (NE : nearly (fun s => vadd (vadd (tr (c s)) (vscale (- (1 / 2)) (cross (lm (rot (c s))) (tr (c s))))) (vscale (ce (norm (lm (rot (c s))))) (cross (lm (rot (c s))) (cross (lm (rot (c s))) (tr (c s)))))) (fun s => lin (ls (c s)))).
    { exists 1. split; [lra|]. intros s _. unfold ls. cbv zeta. cbn [lin]. rewrite mapply_ijac3. reflexivity. }
    assert (DN : der (fun s => norm (lm (rot (c s))))) by (apply (der_norm (fun s => lm (rot (c s)))); [cbv beta; rewrite C0; apply P|exact DW]).
    match type of NE with nearly ?f _ => assert (VF : vder f) end.
    { apply vder_add; [apply vder_add; [exact DT|apply vder_scale; [apply der_const|apply vder_cross; assumption]]|]. apply vder_scale; [apply ce_der; [rewrite C0; exact P|exact DN]|]. apply vder_cross; [exact DW|apply vder_cross; assumption]. }
    destruct VF as [a VF]. exists a. exact (nearly_vderiv _ _ _ NE VF). }
  destruct DW as [u DW], DV as [z DV]. assert (TC : tcurve (fun s => ls (c s)) (ls x) (T u z)) by (split; [cbv beta; rewrite C0; reflexivity|]; split; [exact DW|exact DV]).
  pose proof (sf_curve _ _ _ (proj1 P : 0 < norm (ang (ls x))) TC) as Q. rewrite SF in Q.
  assert (NC : nearly (fun s => sf (ls (c s))) c) by (exists r; split; [exact R|]; intros s S; exact (proj1 (proj2 (proj2 (se_log_ls (c s) (RT s) (N s S)))))).
  apply (nearly_se _ _ _ _ NC) in Q. pose proof (se_unique c x _ _ H C Q) as X. pose proof (inv_speed6 true _ (ls x) d (T u z) E1 X) as Y. rewrite <- Y. exact TC.
Qed.
