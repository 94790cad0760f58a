(** Proofs that the Jacobians returned by the exponentials are their derivatives *)
From Coq Require Import Reals Lra Psatz.
From Verif Require Import RotModel RotSpec RotTrigProofs RotProofs RotExpProofs RotMatProofs RotPiProofs RotDqProofs RotLogProofs RotDerivProofs OrbVelProofs OrbGloProofs ImuSpec ImuResProofs EkfProofs EkfDynProofs JacModel JacSpec JacProofs.
Local Open Scope R_scope.

Lemma e4_norm w : e4 <= dot w w -> e4 < norm w /\ 0 < norm w /\ norm w * norm w = dot w w.
Proof.
  intros L. pose proof e4_pos as E. assert (NP : 0 < norm w) by (apply norm_gt0; lra). pose proof (norm_sq w) as NS. split; [|split; assumption].
  unfold e4 in *. destruct (Rlt_le_dec (4 / 1000000) (norm w)) as [P|P]; [exact P|]. assert (norm w * norm w <= 4 / 1000000 * (4 / 1000000)) by (apply Rmult_le_compat; lra). lra.
Qed.
Lemma jac_terms_exact t : t <> 0 -> jac_terms t (t * t) = Some (ca t, cb t, cc t, c1 t, c2 t).
Proof. intros T. unfold jac_terms, div. destruct (Req_EM_T t 0); [lra|]. destruct (Req_EM_T (t * t) 0); [nra|]. reflexivity. Qed.
Lemma qexp_jac_norm side w : e4 < norm w -> qexp_jac side w = Some (qf w, if side then jl w else jr w).
Proof.
  intros L. pose proof e4_pos. assert (P : 0 < norm w) by lra. pose proof (unitv_scale w P) as K. pose proof (vscale_norm w P) as E. pose proof (qexp_jac_exact side _ (norm w) K L) as J. rewrite E in J. rewrite J. unfold qf, jl, jr. destruct side; reflexivity.
Qed.
Lemma dq_exp_norm x : e4 < dot (ang x) (ang x) -> dq_exp x = Some (ef x).
Proof.
  intros L. destruct (e4_norm (ang x) ltac:(lra)) as (_ & P & S). pose proof (dq_exp_exact _ (norm (ang x)) (lin x) (unitv_scale _ P) P ltac:(lra)) as H. rewrite (vscale_norm _ P) in H. destruct x. exact H.
Qed.
Definition jleft (side : bool) (w : vec) : mat := if side then jl w else jr w.
Definition dleft (side : bool) (w v : vec) : mat := if side then dl w v else dr w v.
Definition j6 (side : bool) (x : tan) : mat6 := M6 (jleft side (ang x)) (dleft side (ang x) (lin x)).
Lemma dq_exp_jac_norm side x : e4 < dot (ang x) (ang x) -> dq_exp_jac side x = Some (ef x, j6 side x).
Proof.
  intros L. destruct (e4_norm (ang x) ltac:(lra)) as (EN & P & S). pose proof (dq_exp_norm x L) as E. unfold dq_exp in E. unfold dq_exp_jac. cbv zeta in *. rewrite (qexp_jac_norm side _ EN). unfold bind at 1. cbn [snd].
  destruct (Rlt_dec e4 (dot (ang x) (ang x))) as [_|N]; [|lra]. fold (norm (ang x)) in *. rewrite <- S in *. rewrite jac_terms_exact by lra. unfold div in *.
  destruct (Req_EM_T (norm (ang x)) 0); [lra|]. destruct (Req_EM_T (norm (ang x) * norm (ang x)) 0); [nra|]. unfold bind in *.
  set (X := ef x) in *. clearbody X. match type of E with Some ?d = Some _ => assert (EX : d = X) by congruence end. rewrite <- EX.
  unfold j6, jleft, dleft, dl, dr, side_sign. destruct side; reflexivity.
Qed.
Lemma m6apply_j6 side x d : m6apply (j6 side x) d = T (mapply (jleft side (ang x)) (ang d)) (vadd (mapply (dleft side (ang x) (lin x)) (ang d)) (mapply (jleft side (ang x)) (lin d))).
Proof. reflexivity. Qed.
Lemma dq_exp_jac_deriv side x x0 d : e4 < dot (ang x0) (ang x0) -> tcurve x x0 d ->
  exists q J g, dq_exp_jac side x0 = Some (q, J) /\ dq_exp x0 = Some q /\ follows (fun s => dq_exp (x s)) g /\ side_curve side g q (m6apply J d).
Proof.
  intros L C. destruct (e4_norm (ang x0) ltac:(lra)) as (EN & P & S). exists (ef x0), (j6 side x0), (fun s => ef (x s)). split; [apply dq_exp_jac_norm, L|]. split; [apply dq_exp_norm, L|]. split.
  - destruct C as (X0 & DA & _). destruct (near_norm _ _ e4 DA) as (r & R & N); [cbv beta; rewrite X0; exact L|]. exists r. split; [exact R|]. intros s H. apply dq_exp_norm, N, H.
  - rewrite m6apply_j6. destruct side; [exact (ef_outer x x0 d P C)|exact (ef_body x x0 d P C)].
Qed.
(** ** SE3 *)
Definition mf (w : vec) : mat := transpose (Rq (qf w)).
Definition sf (x : tan) : se3 := SE (mf (ang x)) (mapply (jl (ang x)) (lin x)).
Lemma qf_unit w : 0 < norm w -> RotSpec.unit (qf w).
Proof. intros P. apply axq_unit, unitv_scale, P. Qed.
Lemma rodrigues_norm a b w m : 0 < norm w -> a = ca (norm w) -> b = cb (norm w) -> m = madd (madd mid (mscale a (skew w))) (mmul (mscale b (skew w)) (skew w)) -> m = mf w.
Proof.
  intros P -> -> ->. apply mat_ext. intros v. unfold mf, qf. rewrite turnq_mat by apply unitv_scale, P. rewrite mapply_rodrigues.
  pose proof (turn_cross_scaled _ (norm w) v (unitv_scale w P) ltac:(lra)) as H. rewrite (vscale_norm w P) in H. rewrite H. reflexivity.
Qed.
Lemma so_exp_norm w : e4 <= dot w w -> so_exp_jac w = Some (mf w, jl w) /\ so_exp w = Some (mf w).
Proof.
  intros L. destruct (e4_norm w L) as (EN & P & S). unfold so_exp_jac, so_exp. cbv zeta. destruct (Rlt_dec (dot w w) e4); [lra|]. fold (norm w). rewrite <- S. unfold div.
  destruct (Req_EM_T (norm w) 0); [lra|]. destruct (Req_EM_T (norm w * norm w) 0); [nra|]. unfold bind. fold (ca (norm w)). fold (cb (norm w)). fold (cc (norm w)).
  rewrite (rodrigues_norm _ _ w _ P eq_refl eq_refl eq_refl). split; reflexivity.
Qed.
Lemma jac3_rodrigues w v : 0 < norm w -> mapply (madd (madd mid (mscale (cb (norm w)) (skew w))) (mmul (mscale (cc (norm w)) (skew w)) (skew w))) v = mapply (jl w) v.
Proof.
  intros P. rewrite mapply_rodrigues. unfold jl. rewrite mapply_jac3, <- norm_sq. rewrite (proj1 (coeffs_rel (norm w) ltac:(lra))). f_equal. f_equal. destruct v as [v1 v2 v3]. unfold vscale. cbn [vx vy vz]. f_equal; ring.
Qed.
Lemma se_exp_norm x : e4 <= dot (ang x) (ang x) -> se_exp_jac x = Some (sf x, j6 true x) /\ se_exp x = Some (sf x).
Proof.
  intros L. destruct (e4_norm _ L) as (EN & P & S). destruct (so_exp_norm _ L) as [SJ SE]. split.
  - unfold se_exp_jac. cbv zeta. destruct (Rlt_dec (dot (ang x) (ang x)) e4); [lra|]. fold (norm (ang x)). rewrite <- S, jac_terms_exact by lra. unfold bind. rewrite SJ. cbn [fst snd]. rewrite (jac3_rodrigues _ _ P). reflexivity.
  - rewrite se_exp_form. unfold sexp_abc. destruct (Rlt_dec (dot (ang x) (ang x)) e4); [lra|]. cbv zeta. fold (norm (ang x)). rewrite <- S. unfold div.
    destruct (Req_EM_T (norm (ang x)) 0); [lra|]. destruct (Req_EM_T (norm (ang x) * norm (ang x)) 0); [nra|]. unfold bind, seof. cbv zeta. fold (ca (norm (ang x))). fold (cb (norm (ang x))). fold (cc (norm (ang x))).
    rewrite (jac3_rodrigues _ _ P), (rodrigues_norm _ _ (ang x) _ P eq_refl eq_refl eq_refl). reflexivity.
Qed.
Lemma cross_sum a b c l : vadd (cross a b) (vadd (cross a c) l) = vadd (cross a (vadd b c)) l.
Proof. destruct a as [a1 a2 a3], b as [b1 b2 b3], c as [z1 z2 z3], l as [l1 l2 l3]. unfold vadd, cross. cbn [vx vy vz]. f_equal; ring. Qed.
Lemma mf_curve w u : 0 < norm (w 0) -> vderiv w 0 u -> so_curve (fun s => mf (w s)) (mf (w 0)) (mapply (jl (w 0)) u).
Proof.
  intros P D. split; [reflexivity|]. intros y. destruct (dqf w u P D) as (_ & A & B & C & E).
  eapply vderiv_to; [exact (rq_deriv (fun s => qf (w s)) _ A B C E y)|]. cbv beta. apply bil_half; [apply qf_unit, P|reflexivity].
Qed.
Lemma sf_curve x x0 d : 0 < norm (ang x0) -> tcurve x x0 d -> se_curve (fun s => sf (x s)) (sf x0) (m6apply (j6 true x0) d).
Proof.
  intros P (X0 & DA & DL). split; [cbv beta; rewrite X0; reflexivity|]. intros y. rewrite m6apply_j6. cbn [ang lin jleft dleft]. unfold se_transformp, sf. cbn [rot tr].
  set (w := fun s => ang (x s)) in *. set (v := fun s => lin (x s)) in *.
  assert (W0 : ang x0 = w 0) by (unfold w; rewrite X0; reflexivity). assert (V0 : lin x0 = v 0) by (unfold v; rewrite X0; reflexivity). rewrite W0, V0 in *.
  eapply vderiv_to; [apply (vderiv_add (fun s => mapply (mf (w s)) y) (fun s => mapply (jl (w s)) (v s))); [exact (proj2 (mf_curve w _ P DA) y)|exact (djl w (ang d) P DA v (lin d) DL)]|].
  rewrite (beta_form w (ang d) P v (lin d)). apply cross_sum.
Qed.
Lemma se_exp_jac_deriv x x0 d : e4 < dot (ang x0) (ang x0) -> tcurve x x0 d ->
  exists m J g, se_exp_jac x0 = Some (m, J) /\ se_exp x0 = Some m /\ follows (fun s => se_exp (x s)) g /\ se_curve g m (m6apply J d).
Proof.
  intros L C. destruct (e4_norm (ang x0) ltac:(lra)) as (EN & P & S). destruct (se_exp_norm x0 ltac:(lra)) as [EJ EE]. exists (sf x0), (j6 true x0), (fun s => sf (x s)). split; [exact EJ|]. split; [exact EE|]. split.
  - destruct C as (X0 & DA & _). destruct (near_norm _ _ e4 DA) as (r & R & N); [cbv beta; rewrite X0; exact L|]. exists r. split; [exact R|]. intros s H. apply se_exp_norm. apply Rlt_le, N, H.
  - exact (sf_curve x x0 d P C).
Qed.
