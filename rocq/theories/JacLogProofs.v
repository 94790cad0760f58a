(** Proofs that the Jacobians returned by the logarithms are their derivatives *)
From Coq Require Import Reals Lra Psatz.
From Verif Require Import RotModel RotSpec RotTrigProofs RotProofs RotExpProofs RotMatProofs RotPiProofs RotDqProofs RotLogProofs RotDerivProofs OrbVelProofs OrbGloProofs ImuSpec ImuResProofs EkfSpec EkfProofs EkfDynProofs JacModel JacSpec JacProofs JacExpProofs.
Local Open Scope R_scope.

(** ** Differentiable functions *)
Definition der (f : R -> R) : Prop := exists l, derivable_pt_lim f 0 l.
Definition vder (f : R -> vec) : Prop := exists a, vderiv f 0 a.
Lemma der_const c : der (fun _ => c). Proof. exists 0. apply dconst. Qed.
Lemma der_plus f g : der f -> der g -> der (fun s => f s + g s). Proof. intros [a A] [b B]. eexists. apply (dplus _ _ _ _ _ A B). Qed.
Lemma der_minus f g : der f -> der g -> der (fun s => f s - g s). Proof. intros [a A] [b B]. eexists. apply (dminus _ _ _ _ _ A B). Qed.
Lemma der_mult f g : der f -> der g -> der (fun s => f s * g s). Proof. intros [a A] [b B]. eexists. apply (dmult _ _ _ _ _ A B). Qed.
Lemma der_inv f : f 0 <> 0 -> der f -> der (fun s => / f s). Proof. intros N [a A]. eexists. apply (dinv _ _ _ N A). Qed.
Lemma der_div f g : g 0 <> 0 -> der f -> der g -> der (fun s => f s / g s). Proof. intros N F G. unfold Rdiv. apply der_mult; [exact F|apply der_inv; assumption]. Qed.
Lemma der_sin f : der f -> der (fun s => sin (f s)). Proof. intros [a A]. eexists. apply (dsin _ _ _ A). Qed.
Lemma der_cos f : der f -> der (fun s => cos (f s)). Proof. intros [a A]. eexists. apply (dcos _ _ _ A). Qed.
Lemma der_sqrt f : 0 < f 0 -> der f -> der (fun s => sqrt (f s)). Proof. intros P [a A]. eexists. apply (dsqrt _ _ _ P A). Qed.
Lemma der_atan f : der f -> der (fun s => atan (f s)). Proof. intros [a A]. eexists. exact (derivable_pt_lim_comp f atan 0 _ _ A (derivable_pt_lim_atan (f 0))). Qed.
Lemma der_near f g : nearly f g -> der f -> der g. Proof. intros N [a A]. exists a. exact (nearly_lim _ _ _ N A). Qed.
Lemma near_pos f a : der f -> a < f 0 -> exists r, 0 < r /\ forall s, Rabs s < r -> a < f s. Proof. intros [l D]. exact (near_lt f l a D). Qed.
Lemma near_neg f a : der f -> f 0 < a -> exists r, 0 < r /\ forall s, Rabs s < r -> f s < a.
Proof.
  intros D L. destruct (near_pos (fun s => 0 - f s) (- a) (der_minus _ _ (der_const 0) D) ltac:(lra)) as (r & P & H). exists r. split; [exact P|]. intros s S. specialize (H s S). lra.
Qed.
Lemma near_and (P Q : R -> Prop) : (exists r, 0 < r /\ forall s, Rabs s < r -> P s) -> (exists r, 0 < r /\ forall s, Rabs s < r -> Q s) -> exists r, 0 < r /\ forall s, Rabs s < r -> P s /\ Q s.
Proof.
  intros (r & A & H) (q & B & K). exists (Rmin r q). split; [apply Rmin_glb_lt; assumption|]. intros s S. pose proof (Rmin_l r q). pose proof (Rmin_r r q). split; [apply H|apply K]; lra.
Qed.
Lemma vder_parts f : der (fun s => vx (f s)) -> der (fun s => vy (f s)) -> der (fun s => vz (f s)) -> vder f.
Proof. intros [a A] [b B] [c C]. exists (V a b c). exact (conj A (conj B C)). Qed.
Lemma vder_x f : vder f -> der (fun s => vx (f s)). Proof. intros [a (A & _)]. eexists. exact A. Qed.
Lemma vder_y f : vder f -> der (fun s => vy (f s)). Proof. intros [a (_ & A & _)]. eexists. exact A. Qed.
Lemma vder_z f : vder f -> der (fun s => vz (f s)). Proof. intros [a (_ & _ & A)]. eexists. exact A. Qed.
Lemma vder_scale f g : der f -> vder g -> vder (fun s => vscale (f s) (g s)).
Proof. intros F G. apply vder_parts; cbn [vscale vx vy vz]; apply der_mult; auto using vder_x, vder_y, vder_z. Qed.
Lemma vder_add f g : vder f -> vder g -> vder (fun s => vadd (f s) (g s)).
Proof. intros F G. apply vder_parts; cbn [vadd vx vy vz]; apply der_plus; auto using vder_x, vder_y, vder_z. Qed.
Lemma vder_sub f g : vder f -> vder g -> vder (fun s => vsub (f s) (g s)).
Proof. intros F G. apply vder_parts; cbn [vsub vx vy vz]; apply der_minus; auto using vder_x, vder_y, vder_z. Qed.
Lemma vder_cross f g : vder f -> vder g -> vder (fun s => cross (f s) (g s)).
Proof. intros F G. apply vder_parts; cbn [cross vx vy vz]; apply der_minus; apply der_mult; auto using vder_x, vder_y, vder_z. Qed.
Lemma der_dot f g : vder f -> vder g -> der (fun s => dot (f s) (g s)).
Proof. intros F G. unfold dot. apply der_plus; [apply der_plus|]; apply der_mult; auto using vder_x, vder_y, vder_z. Qed.
Lemma der_norm f : 0 < norm (f 0) -> vder f -> der (fun s => norm (f s)).
Proof. intros P F. unfold norm. apply der_sqrt; [apply norm_gt0, P|apply der_dot; exact F]. Qed.
Lemma der_atan2 f g : 0 < f 0 -> g 0 <> 0 -> der f -> der g -> der (fun s => atan2 (f s) (g s)).
Proof.
  intros P N F G. assert (A : der (fun s => atan (f s / g s))) by (apply der_atan, der_div; assumption). destruct (Rlt_le_dec 0 (g 0)) as [L|L].
  - apply (der_near (fun s => atan (f s / g s))); [|exact A]. destruct (near_pos g 0 G L) as (r & R & H). exists r. split; [exact R|]. intros s S. specialize (H s S). unfold atan2. destruct (Rlt_dec 0 (g s)); [reflexivity|lra].
  - apply (der_near (fun s => atan (f s / g s) + PI)); [|apply der_plus; [exact A|apply der_const]].
    destruct (near_and _ _ (near_pos f 0 F P) (near_neg g 0 G ltac:(lra))) as (r & R & H). exists r. split; [exact R|]. intros s S. destruct (H s S) as [H1 H2]. unfold atan2.
    destruct (Rlt_dec 0 (g s)); [lra|]. destruct (Rlt_dec (g s) 0); [|lra]. destruct (Rle_dec 0 (f s)); [reflexivity|lra].
Qed.

(** ** Quaternions *)
Definition lq (q : quat) : vec := vscale (2 * atan2 (norm (bar q)) (qw q)) (vscale (/ norm (bar q)) (bar q)).
Lemma lq_facts q : RotSpec.unit q -> 0 < norm (bar q) -> let a := atan2 (norm (bar q)) (qw q) in 0 < a < PI /\ qw q = cos a /\ norm (bar q) = sin a /\ norm (lq q) = 2 * a /\ qf (lq q) = q.
Proof.
  intros U P a. destruct (unit_axq q U P) as (A & C & S & E). fold a in A, C, S, E. do 3 (split; [assumption|]).
  assert (N : norm (lq q) = 2 * a) by (unfold lq; fold a; apply norm_vscale_unit; [apply unitv_scale, P|lra]). split; [exact N|].
  unfold qf. rewrite N. unfold lq. fold a. replace (2 * a / 2) with a by field. rewrite E at 3. f_equal. set (k := vscale (/ norm (bar q)) (bar q)). destruct k as [k1 k2 k3]. unfold vscale. cbn [vx vy vz]. f_equal; field; lra.
Qed.
Lemma qlog_lq q : RotSpec.unit q -> e4 < norm (bar q) -> qlog q = Some (lq q).
Proof.
  intros U P. pose proof e4_pos. unfold qlog. cbv zeta. destruct (Rlt_dec e4 (norm (bar q))) as [_|N]; [|lra]. unfold div. destruct (Req_EM_T (norm (bar q)) 0); [lra|]. unfold bind, lq. f_equal.
  destruct (bar q) as [b1 b2 b3]. set (m := norm _) in *. set (a := atan2 _ _). unfold vscale. cbn [vx vy vz]. f_equal; field; assumption.
Qed.
Lemma qlog_jac_lq side q : RotSpec.unit q -> e4 < norm (bar q) -> qw q <> 0 ->
  exists E, qlog_jac side q = Some (lq q, E) /\ mmul E (jleft side (lq q)) = mid /\ mmul (jleft side (lq q)) E = mid.
Proof.
  intros U P W. destruct (qlog_jac_exact side q U P W) as (k & t & K & TB & S & E & J & TE). pose proof e4_pos.
  assert (L : vscale t k = lq q).
  { pose proof (qlog_lq q U P) as Q1. assert (P2 : e4 < sin (t / 2)). { rewrite E in P. rewrite bar_turnq, norm_vscale_unit in P; [exact P|exact K|apply sin_ge_0; lra]. }
    pose proof (qlog_turnq k (t / 2) K ltac:(lra) P2) as Q2. rewrite <- E, Q1 in Q2. replace (2 * (t / 2)) with t in Q2 by field. congruence. }
  assert (N : norm (lq q) = t) by (rewrite <- L; apply norm_vscale_unit; [exact K|lra]).
  eexists. rewrite J, L. split; [reflexivity|]. unfold jleft, jl, jr. rewrite N. destruct side.
  - pose proof (jac_pair k t K ltac:(lra) S) as H1. cbv zeta in H1. rewrite L in H1. exact H1.
  - pose proof (jac_pair_right k t K ltac:(lra) S) as H1. cbv zeta in H1. rewrite L in H1. exact H1.
Qed.
Lemma qrate_unique f a b : qrate f a -> qrate f b -> a = b.
Proof.
  intros (A1 & A2 & A3 & A4) (B1 & B2 & B3 & B4). destruct a as [a1 a2 a3 a4], b as [b1 b2 b3 b4]. cbn [qw qx qy qz] in *.
  rewrite (uniqueness_limite _ _ _ _ A1 B1), (uniqueness_limite _ _ _ _ A2 B2), (uniqueness_limite _ _ _ _ A3 B3), (uniqueness_limite _ _ _ _ A4 B4). reflexivity.
Qed.
Lemma half_pure_inj a b : qscale (1 / 2) (make_pure a) = qscale (1 / 2) (make_pure b) -> a = b.
Proof. destruct a as [a1 a2 a3], b as [b1 b2 b3]. unfold qscale, make_pure. cbn [qw qx qy qz vx vy vz]. intros H. injection H as A B C. f_equal; lra. Qed.
Lemma otimes_cancel_r a b q : RotSpec.unit q -> otimes a q = otimes b q -> a = b.
Proof. intros U H. apply (f_equal (fun x => otimes x (inverse q))) in H. rewrite !otimes_assoc, !otimes_inv_r, !otimes_1_r in H by exact U. exact H. Qed.
Lemma otimes_cancel_l a b q : RotSpec.unit q -> otimes q a = otimes q b -> a = b.
Proof. intros U H. apply (f_equal (fun x => otimes (inverse q) x)) in H. rewrite <- !otimes_assoc, !otimes_inv_l, !otimes_1_l in H by exact U. exact H. Qed.
Lemma qrate_bar f a : qrate f a -> vderiv (fun s => bar (f s)) 0 (bar a) /\ der (fun s => qw (f s)).
Proof. intros (A & B & C & D). split; [exact (conj B (conj C D))|exists (qw a); exact A]. Qed.
Lemma lq_vder c q e : qcurve c q e -> 0 < norm (bar q) -> qw q <> 0 -> vder (fun s => lq (c s)).
Proof.
  intros C P W. apply qcurve_rate in C. destruct C as [C0 C]. destruct (qrate_bar _ _ C) as [DB DW]. assert (VB : vder (fun s => bar (c s))) by (eexists; exact DB).
  assert (DN : der (fun s => norm (bar (c s)))) by (apply (der_norm (fun s => bar (c s))); [cbv beta; rewrite C0; exact P|exact VB]).
  unfold lq. apply vder_scale.
  - apply der_mult; [apply der_const|]. apply der_atan2; [rewrite C0; exact P|rewrite C0; exact W|exact DN|exact DW].
  - apply vder_scale; [apply der_inv; [rewrite C0; lra|exact DN]|exact VB].
Qed.
Lemma bar_near c q e k : qcurve c q e -> k < norm (bar q) -> 0 <= k -> exists r, 0 < r /\ forall s, Rabs s < r -> k < norm (bar (c s)).
Proof.
  intros C L K. apply qcurve_rate in C. destruct C as [C0 C]. destruct (qrate_bar _ _ C) as [DB _]. apply (near_pos (fun s => norm (bar (c s)))); [|cbv beta; rewrite C0; exact L].
  apply (der_norm (fun s => bar (c s))); [cbv beta; rewrite C0; lra|eexists; exact DB].
Qed.
Lemma side_speed side c q d w u : RotSpec.unit q -> 0 < norm w -> q = qf w -> side_qcurve side c q d -> qcurve c q (otimes (qscale (1 / 2) (make_pure (mapply (jl w) u))) q) -> d = mapply (jleft side w) u.
Proof.
  intros U P E A B. apply qcurve_rate in B. destruct B as [_ B]. unfold side_qcurve in A. apply qcurve_rate in A. destruct A as [_ A]. pose proof (qrate_unique _ _ _ A B) as H. destruct side; cbn [jleft].
  - apply otimes_cancel_r in H; [|exact U]. apply half_pure_inj, H.
  - pose proof (jac_right_left _ (norm w) u (unitv_scale w P) ltac:(lra)) as R. cbv zeta in R. rewrite (vscale_norm w P) in R. fold (qf w) in R. rewrite <- E in R.
    fold (jl w) in R. fold (jr w) in R. rewrite qscale_otimes_l, <- R, <- qscale_otimes_r in H. apply otimes_cancel_l in H; [|exact U]. apply half_pure_inj, H.
Qed.
Lemma inv_speed J E d u : mmul E J = mid -> d = mapply J u -> u = mapply E d.
Proof. intros H ->. rewrite <- mapply_mmul, H. symmetry. apply mapply_mid. Qed.
Lemma qlog_jac_deriv side c q d : (forall s, RotSpec.unit (c s)) -> side_qcurve side c q d -> e4 < norm (bar q) -> qw q <> 0 ->
  exists w J g, qlog_jac side q = Some (w, J) /\ qlog q = Some w /\ follows (fun s => qlog (c s)) g /\ g 0 = w /\ vderiv g 0 (mapply J d).
Proof.
  intros U C P W. pose proof e4_pos. assert (C0 : c 0 = q) by apply C. assert (Uq : RotSpec.unit q) by (rewrite <- C0; apply U).
  destruct (qlog_jac_lq side q Uq P W) as (E & J & E1 & E2). exists (lq q), E, (fun s => lq (c s)). split; [exact J|]. split; [apply qlog_lq; assumption|].
  destruct (bar_near c q _ e4 C P ltac:(lra)) as (r & R & N). split; [exists r; split; [exact R|]; intros s S; apply qlog_lq; [apply U|apply N, S]|]. split; [rewrite C0; reflexivity|].
  destruct (lq_vder c q _ C ltac:(lra) W) as [u D]. destruct (lq_facts q Uq ltac:(lra)) as (A & _ & _ & LN & QF).
  assert (P0 : 0 < norm ((fun s => lq (c s)) 0)) by (cbv beta; rewrite C0, LN; lra).
  pose proof (dqf (fun s => lq (c s)) u P0 D) as Q. cbv beta in Q. rewrite C0, QF in Q.
  assert (NC : nearly (fun s => qf (lq (c s))) c). { exists r. split; [exact R|]. intros s S. apply lq_facts; [apply U|]. specialize (N s S). lra. }
  apply (nearly_qcurve _ _ _ _ NC) in Q. cbv beta in P0. rewrite C0 in P0.
  pose proof (side_speed side c q d (lq q) u Uq P0 (eq_sym QF) C Q) as H1. rewrite <- (inv_speed _ _ _ _ E1 H1). exact D.
Qed.

(** ** Dual quaternions *)
Definition ll (r : quat) (t : vec) : vec := mapply (ijac3 (- (1 / 2)) (ceh (norm (lq r))) (lq r)) t.
Definition ld (p : dquat) : tan := T (lq (real p)) (ll (real p) (translation p)).
Lemma jl_ll r t : RotSpec.unit r -> 0 < norm (bar r) -> mapply (jl (lq r)) (ll r t) = t.
Proof.
  intros U P. destruct (lq_facts r U P) as (A & C & S & N & QF). unfold ll, jl. rewrite N. set (a := atan2 _ _) in *. set (k := vscale (/ norm (bar r)) (bar r)).
  change (lq r) with (vscale (2 * a) k). apply jac_any; [apply unitv_scale, P|lra|]. replace (2 * a / 2) with a by field. rewrite <- S. lra.
Qed.
Lemma ef_ld r t : RotSpec.unit r -> 0 < norm (bar r) -> ef (ld (dq_of r t)) = dq_of r t.
Proof.
  intros U P. unfold ef, ld. cbn [ang lin]. rewrite translation_of by exact U. cbn [real dq_of]. rewrite (jl_ll r t U P). destruct (lq_facts r U P) as (_ & _ & _ & _ & ->). reflexivity.
Qed.
Lemma dq_log_ld r t : RotSpec.unit r -> 1 / 100000000 < dot (bar r) (bar r) -> dq_log (dq_of r t) = Some (ld (dq_of r t)).
Proof.
  intros U L. assert (P : 0 < norm (bar r)) by (apply norm_gt0; lra). pose proof (jl_ll r t U P) as E. destruct (lq_facts r U P) as (A & C & S & N & QF). unfold jl in E. rewrite N in E.
  set (a := atan2 _ _) in *. set (k := vscale (/ norm (bar r)) (bar r)). assert (K : unitv k) by apply unitv_scale, P. assert (LQ : lq r = vscale (2 * a) k) by reflexivity.
  assert (QT : r = turnq k a). { rewrite <- QF at 1. unfold qf. rewrite N. replace (2 * a / 2) with a by field. f_equal. rewrite LQ. destruct k as [k1 k2 k3]. unfold vscale. cbn [vx vy vz]. f_equal; field; lra. }
  pose proof (dq_log_exact k a (ll r t) K A) as H. rewrite <- LQ, E, <- QT in H. unfold ld. rewrite translation_of by exact U. cbn [real dq_of]. apply H. rewrite <- S, norm_sq. exact L.
Qed.
Definition e6 (side : bool) (E : mat) (x : tan) : mat6 := M6 E (conj_block E (dleft side (ang x) (lin x))).
Lemma dq_log_jac_ld side r t : RotSpec.unit r -> 1 / 1000000 < dot (bar r) (bar r) -> qw r <> 0 -> exists E, let x := ld (dq_of r t) in
  dq_log_jac side (dq_of r t) = Some (x, e6 side E x) /\ dq_log (dq_of r t) = Some x /\ mmul E (jleft side (ang x)) = mid /\ mmul (jleft side (ang x)) E = mid.
Proof.
  intros U L W. assert (NP : 0 < norm (bar r)) by (apply norm_gt0; lra). pose proof (norm_sq (bar r)) as NS.
  assert (P : e4 < norm (bar r)). { unfold e4. destruct (Rlt_le_dec (4 / 1000000) (norm (bar r))) as [H|H]; [exact H|]. assert (norm (bar r) * norm (bar r) <= 4 / 1000000 * (4 / 1000000)) by (apply Rmult_le_compat; lra). lra. }
  destruct (qlog_jac_lq side r U P W) as (E & J & E1 & E2). exists E. cbv zeta. pose proof (dq_log_ld r t U ltac:(lra)) as D. split; [|split; [exact D|split; assumption]].
  destruct (lq_facts r U NP) as (A & C & S & N & _). set (x := ld (dq_of r t)) in *. assert (XA : ang x = lq r) by reflexivity. clearbody x.
  assert (TH : e4 < dot (lq r) (lq r)). { rewrite <- norm_sq, N. set (a := atan2 _ _) in *. pose proof (sin_lt_self a ltac:(lra)) as SL. rewrite <- S in SL. unfold e4. nra. }
  unfold dq_log_jac, dq_log in *. cbv zeta in *. set (dd := dual (dq_of r t)) in *. cbn [real dq_of] in *. rewrite J. unfold bind at 1. cbn [fst snd]. destruct (Rlt_dec e4 (dot (lq r) (lq r))) as [_|X]; [|lra].
  destruct (Rlt_dec (1 / 100000000) (dot (bar r) (bar r))) as [_|X]; [|lra]. fold (norm (lq r)). rewrite <- (norm_sq (lq r)). rewrite jac_terms_exact by lra.
  unfold div in *. destruct (Req_EM_T (sqrt (dot (bar r) (bar r))) 0) as [Z|_]; [fold (norm (bar r)) in Z; lra|]. destruct (Req_EM_T (dot (bar r) (bar r)) 0); [lra|]. unfold bind in *.
  match type of D with Some (T _ ?v) = _ => set (y := v) in *; clearbody y end.
  assert (XL : lin x = y) by (assert (EX : T (vscale (2 * (atan2 (sqrt (dot (bar r) (bar r))) (qw r) / sqrt (dot (bar r) (bar r)))) (bar r)) y = x) by congruence; rewrite <- EX; reflexivity).
  destruct x as [xa xl]. cbn [ang lin] in *. subst xa xl. unfold e6, dleft, dl, dr, side_sign. cbn [ang lin]. destruct side; reflexivity.
Qed.
Lemma outer_unique c p d d' : RotSpec.unit (real p) -> outer_curve c p d -> outer_curve c p d' -> d = d'.
Proof.
  intros U [A B] [A' B']. apply qcurve_rate in A, B, A', B'. pose proof (qrate_unique _ _ _ (proj2 A) (proj2 A')) as X. pose proof (qrate_unique _ _ _ (proj2 B) (proj2 B')) as Y.
  destruct d as [a l], d' as [a' l']. unfold outer_rate, dq_mul in X, Y. cbn [real dual ang lin] in X, Y. apply otimes_cancel_r in X; [|exact U]. apply half_pure_inj in X. subst a'.
  assert (Z : otimes (qscale (1 / 2) (make_pure l)) (real p) = otimes (qscale (1 / 2) (make_pure l')) (real p)).
  { set (m := otimes (qscale (1 / 2) (make_pure a)) (dual p)) in *. set (z := otimes (qscale (1 / 2) (make_pure l)) (real p)) in *. set (z' := otimes (qscale (1 / 2) (make_pure l')) (real p)) in *. clearbody m z z'. destruct m as [m0 m1 m2 m3], z as [y0 y1 y2 y3], z' as [w0 w1 w2 w3]. unfold qadd in Y. cbn [qw qx qy qz] in Y. injection Y as Y0 Y1 Y2 Y3. f_equal; lra. }
  apply otimes_cancel_r in Z; [|exact U]. apply half_pure_inj in Z. subst. reflexivity.
Qed.
Lemma pose_unique c p d d' : RotSpec.unit (real p) -> pose_curve c p d -> pose_curve c p d' -> d = d'.
Proof.
  intros U [A B] [A' B']. apply qcurve_rate in A, B, A', B'. pose proof (qrate_unique _ _ _ (proj2 A) (proj2 A')) as X. pose proof (qrate_unique _ _ _ (proj2 B) (proj2 B')) as Y.
  destruct d as [a l], d' as [a' l']. unfold half_rate, dq_mul in X, Y. cbn [real dual ang lin] in X, Y. apply otimes_cancel_l in X; [|exact U]. apply half_pure_inj in X. subst a'.
  assert (Z : otimes (real p) (qscale (1 / 2) (make_pure l)) = otimes (real p) (qscale (1 / 2) (make_pure l'))).
  { set (m := otimes (dual p) (qscale (1 / 2) (make_pure a))) in *. set (z := otimes (real p) (qscale (1 / 2) (make_pure l))) in *. set (z' := otimes (real p) (qscale (1 / 2) (make_pure l'))) in *. clearbody m z z'. destruct m as [m0 m1 m2 m3], z as [y0 y1 y2 y3], z' as [w0 w1 w2 w3]. unfold qadd in Y. cbn [qw qx qy qz] in Y. injection Y as Y0 Y1 Y2 Y3. f_equal; lra. }
  apply otimes_cancel_l in Z; [|exact U]. apply half_pure_inj in Z. subst. reflexivity.
Qed.
Lemma side_unique side c p d d' : RotSpec.unit (real p) -> side_curve side c p d -> side_curve side c p d' -> d = d'.
Proof. destruct side; [apply outer_unique|apply pose_unique]. Qed.
Lemma nearly_side side c c' p d : nearly c c' -> side_curve side c p d -> side_curve side c' p d.
Proof. destruct side; [apply nearly_outer|apply nearly_pose]. Qed.
(** the inverse of a Jacobian *)
Lemma mapply_conj E D d : mapply (conj_block E D) d = vneg (mapply E (mapply D (mapply E d))).
Proof.
  unfold conj_block. rewrite !mapply_mmul, mapply_mscale. generalize (mapply E (mapply D (mapply E d))). intros [a b c]. unfold vscale, vneg. cbn [vx vy vz]. f_equal; ring.
Qed.
Lemma inv_speed6 side E x d u : mmul E (jleft side (ang x)) = mid -> d = m6apply (j6 side x) u -> u = m6apply (e6 side E x) d.
Proof.
  intros H ->. rewrite m6apply_j6. unfold m6apply, e6. cbn [dg lo ang lin]. assert (I : forall v, mapply E (mapply (jleft side (ang x)) v) = v) by (intros v; rewrite <- mapply_mmul, H; apply mapply_mid).
  rewrite mapply_conj, mapply_add, !I. destruct u as [a l]. cbn [ang lin]. f_equal. generalize (mapply E (mapply (dleft side (ang x) (lin x)) a)). intros [z1 z2 z3]. destruct l as [l1 l2 l3]. unfold vneg, vadd. cbn [vx vy vz]. f_equal; ring.
Qed.
Lemma side_parts side c p d : side_curve side c p d -> side_qcurve side (fun s => real (c s)) (real p) (ang d) /\ (exists a, qrate (fun s => dual (c s)) a) /\ dual (c 0) = dual p.
Proof.
  destruct side; intros [A B]; (split; [exact A|]; split; [eexists; exact (proj2 (qcurve_rate _ _ _ B))|exact (proj1 B)]).
Qed.
Lemma ceh_der f : 0 < f 0 < 2 * PI -> der f -> der (fun s => ceh (f s)).
Proof.
  intros P D. unfold ceh. assert (S : 0 < sin (f 0 / 2)) by (apply sin_gt_0; lra). assert (D2 : der (fun s => f s / 2)) by (apply der_div; [lra|exact D|apply der_const]).
  apply der_div; [nra| |apply der_mult; exact D]. apply der_minus; [apply der_const|]. apply der_div; [lra| |apply der_sin; exact D2]. apply der_mult; [exact D2|apply der_cos; exact D2].
Qed.
Lemma ll_vder (r : R -> quat) (t : R -> vec) : RotSpec.unit (r 0) -> 0 < norm (bar (r 0)) -> vder (fun s => lq (r s)) -> vder t -> vder (fun s => ll (r s) (t s)).
Proof.
  intros U P DL DT. destruct (lq_facts (r 0) U P) as (A & _ & _ & N & _).
  assert (E : nearly (fun s => vadd (vadd (t s) (vscale (- (1 / 2)) (cross (lq (r s)) (t s)))) (vscale (ceh (norm (lq (r s)))) (cross (lq (r s)) (cross (lq (r s)) (t s))))) (fun s => ll (r s) (t s))).
  { exists 1. split; [lra|]. intros s _. unfold ll. rewrite mapply_ijac3. reflexivity. }
  assert (DN : der (fun s => norm (lq (r s)))) by (apply (der_norm (fun s => lq (r s))); [cbv beta; rewrite N; lra|exact DL]).
  assert (V : vder (fun s => vadd (vadd (t s) (vscale (- (1 / 2)) (cross (lq (r s)) (t s)))) (vscale (ceh (norm (lq (r s)))) (cross (lq (r s)) (cross (lq (r s)) (t s)))))).
  { apply vder_add; [apply vder_add; [exact DT|apply vder_scale; [apply der_const|apply vder_cross; assumption]]|]. apply vder_scale; [apply ceh_der; [rewrite N; lra|exact DN]|]. apply vder_cross; [exact DL|apply vder_cross; assumption]. }
  destruct V as [a V]. exists a. exact (nearly_vderiv _ _ _ E V).
Qed.
Lemma translation_vder (c : R -> dquat) a b : qrate (fun s => real (c s)) a -> qrate (fun s => dual (c s)) b -> vder (fun s => translation (c s)).
Proof.
  intros A B. destruct (qrate_bar _ _ (qrate_mul _ _ _ _ B (qrate_inverse _ _ A))) as [V _]. unfold translation. apply (vder_scale (fun _ => 2)); [apply der_const|]. eexists. exact V.
Qed.
Lemma dq_log_jac_deriv side c p d : (forall s, EkfSpec.rigid (c s)) -> side_curve side c p d -> 1 / 1000000 < dot (bar (real p)) (bar (real p)) -> qw (real p) <> 0 ->
  exists x J g, dq_log_jac side p = Some (x, J) /\ dq_log p = Some x /\ follows (fun s => dq_log (c s)) g /\ tcurve g x (m6apply J d).
Proof.
  intros RG C L W. destruct (side_parts _ _ _ _ C) as (CR & (b & CD) & D0). assert (CR' := CR). unfold side_qcurve in CR'. apply qcurve_rate in CR'. destruct CR' as [R0 CR'].
  assert (C0 : c 0 = p) by (cbv beta in R0; clear - R0 D0; destruct (c 0) as [r1 d1], p as [r2 d2]; cbn [real dual] in *; congruence). destruct (RG 0) as (r & t & U & E). rewrite C0 in E.
  assert (Ur : RotSpec.unit (real p)) by (rewrite E; exact U). assert (NP : 0 < norm (bar (real p))) by (apply norm_gt0; lra).
  assert (LP : lq r = lq (real p)) by (rewrite E; reflexivity).
  destruct (dq_log_jac_ld side r t U) as (M & J & DL & M1 & M2); [rewrite E in L; exact L|rewrite E in W; exact W|]. rewrite <- E in *. set (x := ld p) in *.
  assert (NR : exists r, 0 < r /\ forall s, Rabs s < r -> 1 / 1000000 < dot (bar (real (c s))) (bar (real (c s)))).
  { destruct (qrate_bar _ _ CR') as [DB _]. apply (near_norm _ _ (1 / 1000000) DB). cbv beta. rewrite C0. exact L. }
  exists x, (e6 side M x), (fun s => ld (c s)). split; [exact J|]. split; [exact DL|]. split.
  - destruct NR as (rr & RP & N). exists rr. split; [exact RP|]. intros s S. specialize (N s S). destruct (RG s) as (q' & t' & U' & E'). rewrite E' in *. apply dq_log_ld; [exact U'|]. cbn [real dq_of] in N. lra.
  - assert (DW : vder (fun s => lq (real (c s)))) by (apply (lq_vder (fun s => real (c s)) (real p) _ CR); [exact NP|exact W]). pose proof (translation_vder c _ _ CR' CD) as DT.
    assert (DV : vder (fun s => ll (real (c s)) (translation (c s)))). { apply ll_vder; [cbv beta; rewrite C0; exact Ur|cbv beta; rewrite C0; exact NP|exact DW|exact DT]. }
    destruct DW as [u DW], DV as [z DV]. assert (TC : tcurve (fun s => ld (c s)) x (T u z)) by (split; [cbv beta; rewrite C0; reflexivity|]; split; assumption).
    assert (PX : 0 < norm (ang x)). { unfold x, ld. cbn [ang]. destruct (lq_facts (real p) Ur NP) as (A & _ & _ & N & _). rewrite N. lra. }
    assert (SC : side_curve side (fun s => ef (ld (c s))) (ef x) (m6apply (j6 side x) (T u z))) by (rewrite m6apply_j6; destruct side; [exact (ef_outer _ _ _ PX TC)|exact (ef_body _ _ _ PX TC)]).
    assert (NC : nearly (fun s => ef (ld (c s))) c).
    { destruct NR as (rr & RP & N). exists rr. split; [exact RP|]. intros s S. specialize (N s S). destruct (RG s) as (q' & t' & U' & E'). rewrite E' in *. apply ef_ld; [exact U'|]. cbn [real dq_of] in N. apply norm_gt0. lra. }
    apply (nearly_side _ _ _ _ _ NC) in SC. assert (EX : ef x = p) by (unfold x; rewrite E; apply ef_ld; [exact U|]; rewrite E in NP; exact NP). rewrite EX in SC.
    pose proof (side_unique side c p _ _ Ur C SC) as H. pose proof (inv_speed6 side M x d (T u z) M1 H) as H2. rewrite <- H2. exact TC.
Qed.
