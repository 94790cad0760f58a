(** Dual quaternions: exponential, logarithm, adjoint; the Jacobian of the quaternion
    exponential is its derivative. *)
From Coq Require Import Reals Lra Psatz.
From Verif Require Import RotModel RotSpec RotProofs RotTrigProofs RotExpProofs RotMatProofs RotPiProofs.
Local Open Scope R_scope.

(** Half the pure quaternion of J d times the quaternion of the turn *)
Lemma half_pure_jac k t d : unitv k -> t <> 0 -> let w := vscale t k in let s := sin (t / 2) / t in let g := dot w d * ((1 / 2 * cos (t / 2) - s) / (t * t)) in
  qscale (1 / 2) (otimes (make_pure (mapply (jac3 (ca t) (cb t) (cc t) w) d)) (turnq k (t / 2))) =
  Q (- dot w d / 2 * s) (g * vx w + s * vx d) (g * vy w + s * vy d) (g * vz w + s * vz d).
Proof.
  intros K T w s g.
  assert (J : mapply (jac3 (ca t) (cb t) (cc t) w) d = vadd (vadd (vscale (ca t) d) (vscale (cb t) (cross w d))) (vscale (cc t * dot w d) w))
    by (clear; unfold jac3; destruct w, d; vec_eq; f_equal; ring).
  assert (P : forall c x u, otimes (make_pure u) (Q c (x * vx w) (x * vy w) (x * vz w)) =
    Q (- x * dot u w) (c * vx u + x * vx (cross u w)) (c * vy u + x * vy (cross u w)) (c * vz u + x * vz (cross u w))) by (clear; intros; destruct w, u; vec_eq; f_equal; ring).
  assert (Q0 : turnq k (t / 2) = Q (cos (t / 2)) (s * vx w) (s * vy w) (s * vz w)) by (unfold turnq, w, s, vscale; vcbn; f_equal; field; exact T).
  rewrite Q0, J, P. pose proof (dot_vscale_unit k t K) as D. fold w in D.
  assert (X : cross (vadd (vadd (vscale (ca t) d) (vscale (cb t) (cross w d))) (vscale (cc t * dot w d) w)) w =
              vadd (vadd (vscale (cb t * (t * t)) d) (vscale (- ca t) (cross w d))) (vscale (- cb t * dot w d) w))
    by (rewrite <- D; clear; destruct w, d; vec_eq; f_equal; ring).
  assert (Y : dot (vadd (vadd (vscale (ca t) d) (vscale (cb t) (cross w d))) (vscale (cc t * dot w d) w)) w = (ca t + cc t * (t * t)) * dot w d)
    by (rewrite <- D; clear; destruct w, d; vec_eq; ring).
  rewrite X, Y.
  assert (A : ca t = 2 * s * cos (t / 2)) by (unfold ca, s; rewrite (sin_half t); field; exact T).
  assert (B : cb t = 2 * s * s) by (unfold cb, s; rewrite (cos_half t); field; exact T).
  assert (C : cc t * (t * t) = 1 - ca t) by (unfold cc, ca; field; exact T).
  assert (E1 : 1 / 2 * (cos (t / 2) * ca t + s * (cb t * (t * t))) = s).
  { rewrite A, B. pose proof (sc1 (t / 2)) as SC. transitivity (s * (cos (t / 2) * cos (t / 2) + (s * t) * (s * t))); [field|].
    replace (s * t) with (sin (t / 2)) by (unfold s; field; exact T). rewrite SC. ring. }
  assert (E2 : cos (t / 2) * cb t + s * - ca t = 0) by (rewrite A, B; ring).
  assert (E3 : 1 / 2 * (cos (t / 2) * (cc t * dot w d) + s * (- cb t * dot w d)) = g).
  { unfold g. replace (cc t) with ((1 - ca t) / (t * t)) by (rewrite <- C; field; exact T). rewrite A, B.
    pose proof (sc1 (t / 2)) as SC. assert (S2 : (s * t) * (s * t) = 1 - cos (t / 2) * cos (t / 2)).
    { replace (s * t) with (sin (t / 2)) by (unfold s; field; exact T). lra. }
    assert (S3 : s * s = (1 - cos (t / 2) * cos (t / 2)) / (t * t)). { rewrite <- S2. field; exact T. }
    replace (s * (- (2 * s * s) * dot w d)) with (- 2 * s * dot w d * (s * s)) by ring. rewrite S3. field; exact T. }
  assert (E4 : ca t + cc t * (t * t) = 1) by lra. rewrite E4. clear X Y A B C J P Q0 D.
  set (c := cos (t / 2)) in *. set (m := cross w d) in *. set (p := dot w d) in *. unfold qscale. cbn [qw qx qy qz].
  assert (G : forall dx mx wx, 1 / 2 * (c * (ca t * dx + cb t * mx + cc t * p * wx) + s * (cb t * (t * t) * dx + - ca t * mx + - cb t * p * wx)) = g * wx + s * dx).
  { intros. rewrite <- E3. transitivity (1 / 2 * (c * ca t + s * (cb t * (t * t))) * dx + 1 / 2 * (c * cb t + s * - ca t) * mx + 1 / 2 * (c * (cc t * p) + s * (- cb t * p)) * wx); [ring|]. rewrite E1, E2. ring. }
  f_equal; [field|apply G|apply G|apply G].
Qed.

(** ** exp *)
Lemma dq_exp_exact k t v : unitv k -> 0 < t -> e4 < t * t ->
  dq_exp (T (vscale t k) v) = Some (dq_of (turnq k (t / 2)) (mapply (jac3 (ca t) (cb t) (cc t) (vscale t k)) v)).
Proof.
  intros K T L. unfold dq_exp. cbn [ang lin]. rewrite (dot_vscale_unit k t K). cbv zeta. rewrite sqrt_square by lra.
  destruct (Rlt_dec e4 (t * t)) as [_|N]; [|lra]. unfold div. destruct (Req_EM_T t 0); [lra|]. destruct (Req_EM_T (t * t) 0); [nra|]. unfold bind.
  unfold dq_of. rewrite half_pure_jac by (try assumption; lra). f_equal. f_equal. unfold turnq, vscale. vcbn. f_equal; field; lra.
Qed.
(** DQuat and SE3 give the same rigid motion *)
Lemma dq_se_exp k t v : unitv k -> 0 < t -> e4 < t * t -> exists a x, dq_exp (T (vscale t k) v) = Some a /\ se_exp (T (vscale t k) v) = Some x /\
  (forall p, transforma a p = se_transformp x p) /\ (forall p, transforma a p = vadd (turn k t p) (translation a)).
Proof.
  intros K T L. destruct (se_exp_exact k t v K T ltac:(lra)) as (m & M & E). rewrite (dq_exp_exact k t v K T L), E. do 2 eexists. do 2 (split; [reflexivity|]).
  pose proof (axq_unit k (t / 2) K) as U. split; intros p; rewrite transforma_of by exact U; rewrite axq_turn by exact K.
  - unfold se_transformp. cbn [rot tr]. f_equal. destruct (so_exp_exact k t K ltac:(lra) ltac:(lra)) as (m' & M' & E'). rewrite M in M'. injection M' as <-. symmetry. apply E'.
  - rewrite translation_of by exact U. reflexivity.
Qed.

(** ** The adjoint *)
Definition dqof (c s p g : R) (w v : vec) : dquat :=
  DQ (Q c (s * vx w) (s * vy w) (s * vz w)) (Q p (g * vx w + s * vx v) (g * vy w + s * vy v) (g * vz w + s * vz v)).
Lemma conj_rot q c s p g w v : unit q -> dq_mul (dq_mul (dq_of q (V 0 0 0)) (dqof c s p g w v)) (dq_inverse (dq_of q (V 0 0 0))) = dqof c s p g (rota q w) (rota q v).
Proof.
  intros U. assert (Z : dual (dq_of q (V 0 0 0)) = Q 0 0 0 0) by (unfold dq_of; cbn [dual]; destruct q; vec_eq; f_equal; ring).
  assert (DZ : dq_of q (V 0 0 0) = DQ q (Q 0 0 0 0)) by (rewrite <- Z; reflexivity). rewrite DZ. unfold dq_mul, dq_inverse, dqof. cbn [real dual].
  assert (O1 : forall x, otimes x (inverse (Q 0 0 0 0)) = Q 0 0 0 0) by (intros []; vec_eq; f_equal; ring).
  assert (O2 : forall x, otimes (Q 0 0 0 0) x = Q 0 0 0 0) by (intros []; vec_eq; f_equal; ring).
  assert (O3 : forall x, qadd x (Q 0 0 0 0) = x) by (intros []; vec_eq; f_equal; ring).
  assert (O4 : forall x, qadd (Q 0 0 0 0) x = x) by (intros []; vec_eq; f_equal; ring).
  rewrite O1, O2, O3, O4.
  assert (S : forall a g s w v, otimes (otimes q (Q a (g * vx w + s * vx v) (g * vy w + s * vy v) (g * vz w + s * vz v))) (inverse q) =
    Q a (g * vx (rota q w) + s * vx (rota q v)) (g * vy (rota q w) + s * vy (rota q v)) (g * vz (rota q w) + s * vz (rota q v))).
  { clear -U. intros a g s w v. pose proof (sandwich_full q a (vadd (vscale g w) (vscale s v)) U) as F.
    assert (L : rota q (vadd (vscale g w) (vscale s v)) = vadd (vscale g (rota q w)) (vscale s (rota q v))) by (clear; destruct q, w, v; vec_eq; f_equal; ring).
    rewrite L in F. exact F. }
  assert (S1 : otimes (otimes q (Q c (s * vx w) (s * vy w) (s * vz w))) (inverse q) = Q c (s * vx (rota q w)) (s * vy (rota q w)) (s * vz (rota q w))).
  { specialize (S c s 0 w (V 0 0 0)). assert (H : forall a b, a + 0 * b = a) by (intros; ring). rewrite !H in S. exact S. }
  rewrite S1, S. reflexivity.
Qed.
Lemma conj_tr t c s p g w v : dq_mul (dq_mul (dq_of Identity t) (dqof c s p g w v)) (dq_inverse (dq_of Identity t)) = dqof c s p g w (vadd (cross t w) v).
Proof.
  unfold dq_of, dq_inverse, dq_mul, dqof. cbn [real dual].
  assert (I : inverse Identity = Identity) by (unfold inverse, Identity; vcbn; f_equal; ring). rewrite I, !otimes_1_l, !otimes_1_r. f_equal.
  destruct t as [t1 t2 t3], w as [w1 w2 w3], v as [v1 v2 v3]. unfold qscale, make_pure, inverse, otimes, qadd, vadd, cross. vcbn. f_equal; field.
Qed.
Lemma dq_of_split q t : unit q -> dq_of q t = dq_mul (dq_of Identity t) (dq_of q (V 0 0 0)).
Proof.
  intros U. rewrite dq_mul_of by (unfold unit, Identity; vcbn; ring). rewrite otimes_1_l, rota_Identity. f_equal. destruct t. vec_eq. f_equal; ring.
Qed.
Lemma dq_inverse_mul a b : dq_inverse (dq_mul a b) = dq_mul (dq_inverse b) (dq_inverse a).
Proof. destruct a as [[] []], b as [[] []]. unfold dq_inverse, dq_mul. cbn [real dual]. vec_eq. f_equal; f_equal; ring. Qed.
Lemma dq_conj q t c s p g w v : unit q -> dq_mul (dq_mul (dq_of q t) (dqof c s p g w v)) (dq_inverse (dq_of q t)) = dqof c s p g (rota q w) (vadd (cross t (rota q w)) (rota q v)).
Proof.
  intros U. rewrite (dq_of_split q t U), dq_inverse_mul, <- conj_tr, <- (conj_rot q c s p g w v U), !dq_mul_assoc. reflexivity.
Qed.
Definition dexp_cs (th2 : R) : option (R * R) :=
  let th := sqrt th2 in let ct := cos (th / 2) in
  if Rlt_dec e4 th2 then do s <- div (sin (th / 2)) th; do g <- div (1 / 2 * ct - s) th2; Some (s, g)
  else let th4 := th2 * th2 in Some (1 / 2 - 1 / 48 * th2 + 1 / 3840 * th4, - (1) / 24 + 1 / 960 * th2 - 1 / 107520 * th4).
Lemma dq_exp_form x : dq_exp x = do sg <- dexp_cs (dot (ang x) (ang x));
  Some (dqof (cos (sqrt (dot (ang x) (ang x)) / 2)) (fst sg) (- dot (ang x) (lin x) / 2 * fst sg) (dot (ang x) (lin x) * snd sg) (ang x) (lin x)).
Proof.
  unfold dq_exp, dexp_cs. cbv zeta. destruct (Rlt_dec e4 (dot (ang x) (ang x))); [|reflexivity].
  unfold div. destruct (Req_EM_T _ 0); [reflexivity|]. unfold bind at 2 3 5 6. destruct (Req_EM_T _ 0); reflexivity.
Qed.
Lemma dq_exp_some x : exists a, dq_exp x = Some a.
Proof.
  rewrite dq_exp_form. unfold dexp_cs. cbv zeta. destruct (Rlt_dec e4 _) as [L|L]; [|eexists; reflexivity]. pose proof e4_pos.
  assert (P : 0 < sqrt (dot (ang x) (ang x))) by (apply sqrt_lt_R0; lra). unfold div. destruct (Req_EM_T _ 0); [lra|]. unfold bind at 2. destruct (Req_EM_T _ 0); [lra|]. eexists. reflexivity.
Qed.
Lemma dq_Ad q t x : unit q -> exists e e', dq_exp x = Some e /\ dq_exp (m6apply (dqAd (dq_of q t)) x) = Some e' /\
  dq_mul (dq_mul (dq_of q t) e) (dq_inverse (dq_of q t)) = e'.
Proof.
  intros U. destruct (dq_exp_some x) as (e & E). exists e.
  assert (A : m6apply (dqAd (dq_of q t)) x = T (rota q (ang x)) (vadd (cross t (rota q (ang x))) (rota q (lin x)))).
  { unfold m6apply, dqAd. cbn [dg lo]. rewrite translation_of by exact U. cbn [real dq_of]. rewrite mapply_mmul, mapply_skew, <- !rota_matrix. reflexivity. }
  rewrite A. rewrite (dq_exp_form (T (rota q (ang x)) _)). cbn [ang lin]. pose proof (rota_shape q U) as SH.
  assert (D1 : dot (rota q (ang x)) (rota q (ang x)) = dot (ang x) (ang x)) by apply SH.
  assert (D2 : dot (rota q (ang x)) (vadd (cross t (rota q (ang x))) (rota q (lin x))) = dot (ang x) (lin x)).
  { transitivity (dot (rota q (ang x)) (rota q (lin x))); [|apply SH]. destruct (rota q (ang x)), (rota q (lin x)), t. vec_eq. ring. }
  rewrite D1, D2. pose proof E as E'. rewrite dq_exp_form in E'. destruct (dexp_cs (dot (ang x) (ang x))) as [sg|]; [|discriminate]. cbn [bind] in *.
  eexists. split; [exact E|]. split; [reflexivity|]. assert (E0 : e = dqof (cos (sqrt (dot (ang x) (ang x)) / 2)) (fst sg) (- dot (ang x) (lin x) / 2 * fst sg) (dot (ang x) (lin x) * snd sg) (ang x) (lin x)) by congruence.
  rewrite E0. apply dq_conj, U.
Qed.

(** SE3 *)
Definition seof (a b c : R) (w v : vec) : se3 :=
  let k := skew w in SE (madd (madd mid (mscale a k)) (mmul (mscale b k) k)) (mapply (madd (madd mid (mscale b k)) (mmul (mscale c k) k)) v).
Definition sexp_abc (th2 : R) : option (R * R * R) :=
  if Rlt_dec th2 e4 then
    let th4 := th2 * th2 in Some (1 - th2 / 6 + th4 / 120, 1 / 2 - th2 / 24 + th4 / 720, 1 / 6 - th2 / 120 + th4 / 5040)
  else let th := sqrt th2 in do a <- div (sin th) th; do b <- div (1 - cos th) th2; do c <- div (1 - a) th2; Some (a, b, c).
Lemma se_exp_form x : se_exp x = do abc <- sexp_abc (dot (ang x) (ang x)); let '(a, b, c) := abc in Some (seof a b c (ang x) (lin x)).
Proof. reflexivity. Qed.
(** The coefficients of the two matrices belong together *)
Lemma sexp_rel th2 a b c : 0 <= th2 -> sexp_abc th2 = Some (a, b, c) -> e4 <= th2 -> a + c * th2 = 1.
Proof.
  intros P E L. unfold sexp_abc in E. destruct (Rlt_dec th2 e4); [lra|]. cbv zeta in E. pose proof e4_pos. assert (S : 0 < sqrt th2) by (apply sqrt_lt_R0; lra).
  unfold div in E. destruct (Req_EM_T (sqrt th2) 0); [lra|]. destruct (Req_EM_T th2 0); [lra|]. unfold bind in E. injection E as <- <- <-. field. lra.
Qed.
Lemma sexp_some th2 : 0 <= th2 -> exists abc, sexp_abc th2 = Some abc.
Proof.
  intros P. unfold sexp_abc. destruct (Rlt_dec th2 e4); [eexists; reflexivity|]. cbv zeta. pose proof e4_pos. assert (S : 0 < sqrt th2) by (apply sqrt_lt_R0; lra).
  unfold div. destruct (Req_EM_T (sqrt th2) 0); [lra|]. destruct (Req_EM_T th2 0); [lra|]. unfold bind. eexists; reflexivity.
Qed.
Lemma rot_cross m a b : rotation m -> cross (mapply m a) (mapply m b) = mapply m (cross a b).
Proof. intros H. apply (rotation_shape m H). Qed.
(** X exp(xi) = exp(Ad xi) X, up to the term by which the series for small angles differ *)
Lemma se_Ad_form x a b c w v : rotation (rot x) -> a + c * dot w w = 1 ->
  se_mul x (seof a b c w v) = se_mul (seof a b c (mapply (rot x) w) (vadd (cross (tr x) (mapply (rot x) w)) (mapply (rot x) v))) x.
Proof.
  intros H A. destruct x as [m t]. cbn [rot tr] in *. unfold seof, se_mul. cbv zeta. cbn [rot tr]. f_equal.
  - apply mat_ext. intros u. rewrite !mapply_mmul, !mapply_rodrigues, !mapply_add, !mapply_scale, <- !rot_cross by exact H. reflexivity.
  - rewrite !mapply_rodrigues, !mapply_add, !mapply_scale, <- !rot_cross by exact H.
    pose proof (rotation_shape m H w w) as [D _]. rewrite <- D in A.
    set (W := mapply m w) in *. set (Vv := mapply m v) in *. clearbody W Vv. clear D H w v m.
    assert (A' : a = 1 - c * dot W W) by lra. rewrite A'. destruct W, Vv, t. vec_eq. f_equal; ring.
Qed.
Lemma se_Ad x xi : rotation (rot x) -> e4 <= dot (ang xi) (ang xi) ->
  exists e e', se_exp xi = Some e /\ se_exp (m6apply (seAd x) xi) = Some e' /\ se_mul x e = se_mul e' x /\ se_mul (se_mul x e) (se_inverse x) = e'.
Proof.
  intros H L. assert (A : m6apply (seAd x) xi = T (mapply (rot x) (ang xi)) (vadd (cross (tr x) (mapply (rot x) (ang xi))) (mapply (rot x) (lin xi)))).
  { unfold m6apply, seAd. cbn [dg lo]. rewrite mapply_mmul, mapply_skew. reflexivity. }
  rewrite A, !se_exp_form. cbn [ang lin]. rewrite (proj1 (rotation_shape _ H (ang xi) (ang xi))).
  destruct (sexp_some (dot (ang xi) (ang xi)) (dot_nonneg _)) as ([[a b] c] & E). rewrite E. unfold bind. do 2 eexists. do 2 (split; [reflexivity|]).
  pose proof (sexp_rel _ a b c (dot_nonneg _) E L) as R. pose proof (se_Ad_form x a b c (ang xi) (lin xi) H R) as F. split; [exact F|].
  rewrite F, se_mul_assoc, se_inv_r, se_id_r by exact H. reflexivity.
Qed.
