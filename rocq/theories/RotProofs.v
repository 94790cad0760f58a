(** Algebra of quaternions, dual quaternions and SE3. *)
From Coq Require Import Reals Lra.
From Verif Require Import RotModel RotSpec.
Local Open Scope R_scope.

Ltac vec_eq := unfold rotp, rota, transformp, transforma, translation, se_transformp, se_transforma, vadd, vsub, vscale, vneg, cross, dot, mapply, transpose, mmul, madd, mscale, skew, Rq, bar, otimes, inverse, qadd, qscale, make_pure, Identity, mid, outer, mzero, trace in *;
  cbn [vx vy vz qw qx qy qz m00 m01 m02 m10 m11 m12 m20 m21 m22 real dual rot tr] in *.

Lemma vec_ext u v : vx u = vx v -> vy u = vy v -> vz u = vz v -> u = v.
Proof. destruct u, v. cbn. congruence. Qed.
Lemma Ropp_eq_reg a b : - a = - b -> a = b.
Proof. lra. Qed.
Ltac vcbn := cbn [vx vy vz qw qx qy qz m00 m01 m02 m10 m11 m12 m20 m21 m22 real dual rot tr ang lin] in *.

(** ** Quaternions *)
Lemma rotp_matrix q v : rotp q v = mapply (Rq q) v.
Proof. destruct q, v. vec_eq. f_equal; ring. Qed.
Lemma rota_matrix q v : rota q v = mapply (transpose (Rq q)) v.
Proof. destruct q, v. vec_eq. f_equal; ring. Qed.
Lemma rotp_inverse q v : rotp (inverse q) v = rota q v.
Proof. destruct q, v. vec_eq. f_equal; ring. Qed.
Lemma rota_inverse q v : rota (inverse q) v = rotp q v.
Proof. destruct q, v. vec_eq. f_equal; ring. Qed.
Lemma otimes_assoc p q r : otimes (otimes p q) r = otimes p (otimes q r).
Proof. destruct p, q, r. vec_eq. f_equal; ring. Qed.
Lemma otimes_1_l q : otimes Identity q = q.
Proof. destruct q. vec_eq. f_equal; ring. Qed.
Lemma otimes_1_r q : otimes q Identity = q.
Proof. destruct q. vec_eq. f_equal; ring. Qed.
Lemma inverse_inverse q : inverse (inverse q) = q.
Proof. destruct q. vec_eq. f_equal; ring. Qed.
Lemma inverse_otimes p q : inverse (otimes p q) = otimes (inverse q) (inverse p).
Proof. destruct p, q. vec_eq. f_equal; ring. Qed.
Lemma unit_inverse q : unit q -> unit (inverse q).
Proof. unfold unit. destruct q. vec_eq. intros <-. ring. Qed.
Lemma otimes_inv_r q : unit q -> otimes q (inverse q) = Identity.
Proof. unfold unit. destruct q. vec_eq. intros U. f_equal; [rewrite <- U| | |]; ring. Qed.
Lemma otimes_inv_l q : unit q -> otimes (inverse q) q = Identity.
Proof. unfold unit. destruct q. vec_eq. intros U. f_equal; [rewrite <- U| | |]; ring. Qed.
Definition nsq (q : quat) : R := qw q * qw q + qx q * qx q + qy q * qy q + qz q * qz q.
Lemma nsq_nonneg q : 0 <= nsq q.
Proof. unfold nsq. pose proof (Rle_0_sqr (qw q)). pose proof (Rle_0_sqr (qx q)). pose proof (Rle_0_sqr (qy q)). pose proof (Rle_0_sqr (qz q)). unfold Rsqr in *. lra. Qed.
Lemma nsq_otimes p q : nsq (otimes p q) = nsq p * nsq q.
Proof. destruct p, q. unfold nsq. vec_eq. ring. Qed.
Lemma qnorm_otimes p q : qnorm (otimes p q) = qnorm p * qnorm q.
Proof. change (qnorm (otimes p q)) with (sqrt (nsq (otimes p q))). rewrite nsq_otimes. apply sqrt_mult; apply nsq_nonneg. Qed.
Lemma unit_otimes p q : unit p -> unit q -> unit (otimes p q).
Proof. intros U W. change (nsq (otimes p q) = 1). rewrite nsq_otimes. change (nsq p = 1) in U. change (nsq q = 1) in W. rewrite U, W. ring. Qed.
Lemma unit_qnorm q : unit q <-> qnorm q = 1.
Proof.
  split; intros U.
  - unfold qnorm, unit in *. rewrite U. apply sqrt_1.
  - change (nsq q = 1). change (sqrt (nsq q) = 1) in U. rewrite <- (sqrt_sqrt (nsq q)) by apply nsq_nonneg. rewrite U. ring.
Qed.

(** q v q^-1 *)
Lemma sandwich q v : unit q -> make_pure (rota q v) = otimes (otimes q (make_pure v)) (inverse q).
Proof.
  unfold unit. destruct q as [a b c d], v as [x y z]. intros U. vec_eq.
  assert (K : forall l r k, l = r + k * (1 - (a * a + b * b + c * c + d * d)) -> l = r) by (intros l r k ->; rewrite U; ring).
  f_equal; [ring|apply (K _ _ x)|apply (K _ _ y)|apply (K _ _ z)]; ring.
Qed.
Lemma make_pure_inj u v : make_pure u = make_pure v -> u = v.
Proof. destruct u, v. unfold make_pure. vcbn. congruence. Qed.

Lemma rota_otimes p q v : unit p -> unit q -> rota (otimes p q) v = rota p (rota q v).
Proof.
  intros U W. apply make_pure_inj. rewrite (sandwich _ _ (unit_otimes _ _ U W)), (sandwich _ _ U), (sandwich _ _ W), inverse_otimes, !otimes_assoc. reflexivity.
Qed.
Lemma rotp_otimes p q v : unit p -> unit q -> rotp (otimes p q) v = rotp q (rotp p v).
Proof.
  intros U W. rewrite <- (inverse_inverse (otimes p q)), rotp_inverse, inverse_otimes, rota_otimes by (apply unit_inverse; assumption).
  rewrite !rota_inverse. reflexivity.
Qed.
Lemma rota_Identity v : rota Identity v = v.
Proof. destruct v. vec_eq. f_equal; ring. Qed.
Lemma rotp_rota q v : unit q -> rotp q (rota q v) = v.
Proof. intros U. rewrite <- rota_inverse, <- rota_otimes, otimes_inv_l by (try assumption; apply unit_inverse; assumption). apply rota_Identity. Qed.
Lemma rota_rotp q v : unit q -> rota q (rotp q v) = v.
Proof. intros U. rewrite <- rota_inverse, <- rota_otimes, otimes_inv_r by (try assumption; apply unit_inverse; assumption). apply rota_Identity. Qed.

Lemma pure_pure u v : otimes (make_pure u) (make_pure v) = Q (- dot u v) (vx (cross u v)) (vy (cross u v)) (vz (cross u v)).
Proof. destruct u, v. vec_eq. f_equal; ring. Qed.
Lemma sandwich_full q s v : unit q -> otimes (otimes q (Q s (vx v) (vy v) (vz v))) (inverse q) = Q s (vx (rota q v)) (vy (rota q v)) (vz (rota q v)).
Proof.
  intros U. pose proof (sandwich q v U) as S. pose proof (otimes_inv_r q U) as I.
  set (w := rota q v) in *. clearbody w. destruct q as [a b c d], v as [x y z], w as [x' y' z'].
  vec_eq. injection S as S0 S1 S2 S3. injection I as I0 I1 I2 I3.
  f_equal.
  - transitivity (0 + s * 1); [rewrite <- I0, S0|]; ring.
  - transitivity (x' + s * 0); [rewrite <- I1, S1|]; ring.
  - transitivity (y' + s * 0); [rewrite <- I2, S2|]; ring.
  - transitivity (z' + s * 0); [rewrite <- I3, S3|]; ring.
Qed.
Lemma rota_shape q : unit q -> keeps_shape (rota q).
Proof.
  intros U a b.
  assert (E : otimes (make_pure (rota q a)) (make_pure (rota q b)) = otimes (otimes q (otimes (make_pure a) (make_pure b))) (inverse q)).
  { rewrite (sandwich q a U), (sandwich q b U), !otimes_assoc.
    rewrite <- (otimes_assoc (inverse q) q), (otimes_inv_l q U), otimes_1_l. reflexivity. }
  rewrite !pure_pure, (sandwich_full q _ (cross a b) U) in E. injection E as E0 E1 E2 E3.
  split; [apply Ropp_eq_reg; exact E0|apply vec_ext; [exact E1|exact E2|exact E3]].
Qed.
Lemma rotp_shape q : unit q -> keeps_shape (rotp q).
Proof. intros U a b. rewrite <- !rota_inverse. apply (rota_shape (inverse q) (unit_inverse q U)). Qed.

Lemma norm_shape f v : keeps_shape f -> norm (f v) = norm v.
Proof. intros K. unfold norm. rewrite (proj1 (K v v)). reflexivity. Qed.

(** ** Linear maps and matrices *)
Lemma mapply_sub m a b : mapply m (vsub a b) = vsub (mapply m a) (mapply m b).
Proof. destruct m, a, b. vec_eq. f_equal; ring. Qed.
Lemma mapply_add m a b : mapply m (vadd a b) = vadd (mapply m a) (mapply m b).
Proof. destruct m, a, b. vec_eq. f_equal; ring. Qed.
Lemma mapply_scale m s b : mapply m (vscale s b) = vscale s (mapply m b).
Proof. destruct m, b. vec_eq. f_equal; ring. Qed.
Lemma mapply_neg m b : mapply m (vneg b) = vneg (mapply m b).
Proof. destruct m, b. vec_eq. f_equal; ring. Qed.
Lemma mapply_mmul a b v : mapply (mmul a b) v = mapply a (mapply b v).
Proof. destruct a, b, v. vec_eq. f_equal; ring. Qed.
Lemma mapply_mid v : mapply mid v = v.
Proof. destruct v. vec_eq. f_equal; ring. Qed.
Lemma mat_ext a b : (forall v, mapply a v = mapply b v) -> a = b.
Proof.
  intros E. pose proof (E ex) as X. pose proof (E ey) as Y. pose proof (E ez) as Z. unfold ex, ey, ez in *. destruct a, b. vec_eq.
  injection X as X0 X1 X2. injection Y as Y0 Y1 Y2. injection Z as Z0 Z1 Z2.
  rewrite ?Rmult_0_r, ?Rmult_1_r, ?Rplus_0_r, ?Rplus_0_l in *. congruence.
Qed.
Lemma transpose_transpose m : transpose (transpose m) = m.
Proof. destruct m. reflexivity. Qed.
Lemma transpose_mmul a b : transpose (mmul a b) = mmul (transpose b) (transpose a).
Proof. destruct a, b. vec_eq. f_equal; ring. Qed.
Lemma dot_transpose m a b : dot (mapply m a) b = dot a (mapply (transpose m) b).
Proof. destruct m, a, b. vec_eq. ring. Qed.
Lemma dot_ext a b : (forall v, dot v a = dot v b) -> a = b.
Proof.
  intros E. pose proof (E ex) as X. pose proof (E ey) as Y. pose proof (E ez) as Z. unfold ex, ey, ez in *. destruct a, b. vec_eq.
  rewrite ?Rmult_0_l, ?Rmult_1_l, ?Rplus_0_r, ?Rplus_0_l in *. congruence.
Qed.
Lemma Rq_otimes p q : unit p -> unit q -> Rq (otimes p q) = mmul (Rq q) (Rq p).
Proof. intros U W. apply mat_ext. intros v. rewrite mapply_mmul, <- !rotp_matrix. apply rotp_otimes; assumption. Qed.

(** A rotation matrix keeps shape and its transpose undoes it *)
Lemma rotation_rows m : rotation m -> mmul m (transpose m) = mid.
Proof.
  destruct m as [a b c d e f g h i]. unfold rotation. cbv zeta. vec_eq. intros (A & B & C & D). injection D as -> -> ->. 
  f_equal; try lra; try ring.
  transitivity ((a * a + b * b + c * c) * (d * d + e * e + f * f) - (a * d + b * e + c * f) * (a * d + b * e + c * f)); [ring|].
  rewrite A, B, C. ring.
Qed.

Lemma rotation_facts m : rotation m ->
  (m00 m = m11 m * m22 m - m12 m * m21 m /\ m01 m = m12 m * m20 m - m10 m * m22 m /\ m02 m = m10 m * m21 m - m11 m * m20 m) /\
  (m10 m = m02 m * m21 m - m01 m * m22 m /\ m11 m = m00 m * m22 m - m02 m * m20 m /\ m12 m = m01 m * m20 m - m00 m * m21 m) /\
  (m20 m = m01 m * m12 m - m02 m * m11 m /\ m21 m = m02 m * m10 m - m00 m * m12 m /\ m22 m = m00 m * m11 m - m01 m * m10 m).
Proof.
  destruct m as [a b c d e f g h i]. unfold rotation. cbv zeta. vec_eq. intros (A & B & C & D). injection D as -> -> ->.
  assert (K : forall x y k l, x = y + k * (1 - (a * a + b * b + c * c)) + l * (a * d + b * e + c * f) -> x = y) by (intros x y k l ->; rewrite A, C; ring).
  assert (L : forall x y k l, x = y + k * (1 - (d * d + e * e + f * f)) + l * (a * d + b * e + c * f) -> x = y) by (intros x y k l ->; rewrite B, C; ring).
  split; [|split]; (split; [|split]); try ring.
  - apply (L _ _ a d); ring.
  - apply (L _ _ b e); ring.
  - apply (L _ _ c f); ring.
  - apply (K _ _ d a); ring.
  - apply (K _ _ e b); ring.
  - apply (K _ _ f c); ring.
Qed.

(** The columns are orthonormal too *)
Lemma rotation_cols m : rotation m -> mmul (transpose m) m = mid.
Proof.
  intros H. pose proof (rotation_facts m H) as ((A0 & A1 & A2) & (B0 & B1 & B2) & (C0 & C1 & C2)).
  pose proof (rotation_rows m H) as E. destruct m as [a b c d e f g h i]. vec_eq. injection E as E0 E1 E2 E3 E4 E5 E6 E7 E8.
  assert (F : a * (e * i - f * h) + b * (f * g - d * i) + c * (d * h - e * g) = 1) by (rewrite <- A0, <- A1, <- A2; exact E0).
  f_equal.
  - rewrite <- F. rewrite A0 at 1. rewrite B0 at 1. rewrite C0 at 1. ring.
  - rewrite A0 at 1. rewrite B0 at 1. rewrite C0 at 1. ring.
  - rewrite A0 at 1. rewrite B0 at 1. rewrite C0 at 1. ring.
  - rewrite A1 at 1. rewrite B1 at 1. rewrite C1 at 1. ring.
  - rewrite <- F. rewrite A1 at 1. rewrite B1 at 1. rewrite C1 at 1. ring.
  - rewrite A1 at 1. rewrite B1 at 1. rewrite C1 at 1. ring.
  - rewrite A2 at 1. rewrite B2 at 1. rewrite C2 at 1. ring.
  - rewrite A2 at 1. rewrite B2 at 1. rewrite C2 at 1. ring.
  - rewrite <- F. rewrite A2 at 1. rewrite B2 at 1. rewrite C2 at 1. ring.
Qed.

(** ** from_R *)
Lemma prod_div n1 n2 s X k : 0 < s -> s * s = X -> n1 * n2 = 4 * k * X -> n1 / (s * 2) * (n2 / (s * 2)) = k.
Proof. intros S E P. replace (n1 / (s * 2) * (n2 / (s * 2))) with (n1 * n2 / (4 * (s * s))) by (field; lra). rewrite P, <- E. field. lra. Qed.
Lemma prod_lead n s : 0 < s -> 1 / 4 * (s * 2) * (n / (s * 2)) = n / 4.
Proof. intros S. field. lra. Qed.
Lemma prod_lead' n s : 0 < s -> n / (s * 2) * (1 / 4 * (s * 2)) = n / 4.
Proof. intros S. field. lra. Qed.
Lemma prod_top s X : s * s = X -> 1 / 4 * (s * 2) * (1 / 4 * (s * 2)) = X / 4.
Proof. intros <-. field. Qed.
Lemma div_some n s : 0 < s -> div n (s * 2) = Some (n / (s * 2)).
Proof. intros S. unfold div. destruct (Req_EM_T (s * 2) 0); [lra|reflexivity]. Qed.

Lemma from_R_rotation m : rotation m -> exists q, from_R m = Some q /\ unit q /\ Rq q = m.
Proof.
  intros H. pose proof (rotation_facts m H) as ((A0 & A1 & A2) & (B0 & B1 & B2) & (C0 & C1 & C2)).
  pose proof (rotation_rows m H) as E. pose proof (rotation_cols m H) as F. clear H.
  destruct m as [a b c d e f g h i]. unfold from_R. vec_eq.
  injection E as E0 E1 E2 _ E4 E5 _ _ E8. injection F as F0 F1 F2 _ F4 F5 _ _ F8.
  destruct (Rlt_dec 0 (a + e + i)) as [T|T].
  - cbv zeta. set (X := a + e + i + 1).
    pose proof (sqrt_lt_R0 X ltac:(unfold X; lra)) as S. pose proof (sqrt_sqrt X ltac:(unfold X; lra)) as SS.
    set (s := sqrt X) in *. clearbody s. rewrite !div_some by exact S. unfold bind.
    eexists. split; [reflexivity|]. unfold unit. vcbn.
    rewrite (prod_top s X SS), !prod_lead by exact S.
    rewrite (prod_div (f - h) (f - h) s X ((1 + a - e - i) / 4)), (prod_div (g - c) (g - c) s X ((1 - a + e - i) / 4)), (prod_div (b - d) (b - d) s X ((1 - a - e + i) / 4)), (prod_div (f - h) (g - c) s X ((b + d) / 4)),
      (prod_div (f - h) (b - d) s X ((c + g) / 4)), (prod_div (g - c) (b - d) s X ((f + h) / 4)) by (try exact S; try exact SS; unfold X; lra).
    split; [unfold X; lra|f_equal; lra].
  - destruct (Rlt_dec e a) as [G1|G1]; [destruct (Rlt_dec i a) as [G2|G2]|].
    1: { cbv zeta. set (X := 1 + a - e - i).
    pose proof (sqrt_lt_R0 X ltac:(unfold X; lra)) as S. pose proof (sqrt_sqrt X ltac:(unfold X; lra)) as SS.
    set (s := sqrt X) in *. clearbody s. rewrite !div_some by exact S. unfold bind.
    eexists. split; [reflexivity|]. unfold unit. vcbn.
    rewrite (prod_top s X SS), ?prod_lead, ?prod_lead' by exact S.
    rewrite (prod_div (f - h) (f - h) s X ((1 + a + e + i) / 4)), (prod_div (d + b) (d + b) s X ((1 - a + e - i) / 4)), (prod_div (g + c) (g + c) s X ((1 - a - e + i) / 4)), (prod_div (f - h) (d + b) s X ((g - c) / 4)),
      (prod_div (f - h) (g + c) s X ((b - d) / 4)), (prod_div (d + b) (g + c) s X ((f + h) / 4)) by (try exact S; try exact SS; unfold X; lra).
    split; [unfold X; lra|f_equal; unfold X; lra]. }
    all: destruct (Rlt_dec i e) as [G3|G3]; try lra.
    1,3: cbv zeta; set (X := 1 + i - a - e);
    pose proof (sqrt_lt_R0 X ltac:(unfold X; lra)) as S; pose proof (sqrt_sqrt X ltac:(unfold X; lra)) as SS;
    set (s := sqrt X) in *; clearbody s; rewrite !div_some by exact S; unfold bind;
    eexists; (split; [reflexivity|]); unfold unit; vcbn;
    rewrite (prod_top s X SS), ?prod_lead, ?prod_lead' by exact S;
    rewrite (prod_div (b - d) (b - d) s X ((1 + a + e + i) / 4)), (prod_div (g + c) (g + c) s X ((1 + a - e - i) / 4)), (prod_div (h + f) (h + f) s X ((1 - a + e - i) / 4)), (prod_div (b - d) (g + c) s X ((f - h) / 4)),
      (prod_div (b - d) (h + f) s X ((g - c) / 4)), (prod_div (g + c) (h + f) s X ((b + d) / 4)) by (try exact S; try exact SS; unfold X; lra);
    (split; [unfold X; lra|f_equal; unfold X; lra]).
    cbv zeta; set (X := 1 + e - a - i);
    pose proof (sqrt_lt_R0 X ltac:(unfold X; lra)) as S; pose proof (sqrt_sqrt X ltac:(unfold X; lra)) as SS;
    set (s := sqrt X) in *; clearbody s; rewrite !div_some by exact S; unfold bind;
    eexists; (split; [reflexivity|]); unfold unit; vcbn;
    rewrite (prod_top s X SS), ?prod_lead, ?prod_lead' by exact S;
    rewrite (prod_div (g - c) (g - c) s X ((1 + a + e + i) / 4)), (prod_div (d + b) (d + b) s X ((1 + a - e - i) / 4)), (prod_div (h + f) (h + f) s X ((1 - a - e + i) / 4)), (prod_div (g - c) (d + b) s X ((f - h) / 4)),
      (prod_div (g - c) (h + f) s X ((b - d) / 4)), (prod_div (d + b) (h + f) s X ((c + g) / 4)) by (try exact S; try exact SS; unfold X; lra);
    (split; [unfold X; lra|f_equal; unfold X; lra]).
Qed.

Lemma Rq_rotation q : unit q -> rotation (Rq q).
Proof.
  intros U. pose proof (rota_shape q U) as K. unfold rotation. cbv zeta.
  assert (X : V (m00 (Rq q)) (m01 (Rq q)) (m02 (Rq q)) = rota q ex) by (unfold ex; rewrite rota_matrix; destruct q; vec_eq; f_equal; ring).
  assert (Y : V (m10 (Rq q)) (m11 (Rq q)) (m12 (Rq q)) = rota q ey) by (unfold ey; rewrite rota_matrix; destruct q; vec_eq; f_equal; ring).
  assert (Z : V (m20 (Rq q)) (m21 (Rq q)) (m22 (Rq q)) = rota q ez) by (unfold ez; rewrite rota_matrix; destruct q; vec_eq; f_equal; ring).
  rewrite X, Y, Z. clear X Y Z. destruct (K ex ex) as [-> _]. destruct (K ey ey) as [-> _]. destruct (K ex ey) as [-> ->].
  split; [|split; [|split]].
  1-3: unfold ex, ey; vec_eq; ring.
  f_equal. unfold ex, ey, ez. vec_eq. f_equal; ring.
Qed.
Lemma Rsum3_0 a b : a * a + b * b = 0 -> a = 0 /\ b = 0.
Proof. intros E. pose proof (Rle_0_sqr a). pose proof (Rle_0_sqr b). unfold Rsqr in *. split; apply Rsqr_0_uniq; unfold Rsqr; lra. Qed.
Lemma Rq_mid q : unit q -> Rq q = mid -> q = Identity \/ q = qscale (-1) Identity.
Proof.
  unfold unit. destruct q as [w x y z]. vec_eq. intros U E. injection E as E0 _ _ _ E1 _ _ _ E2.
  destruct (Rsum3_0 y z ltac:(lra)) as [-> ->]. destruct (Rsum3_0 x 0 ltac:(lra)) as [-> _].
  assert (W : (w - 1) * (w + 1) = 0) by lra. apply Rmult_integral in W. destruct W as [W|W]; [left|right]; f_equal; lra.
Qed.
Lemma Rq_inj p q : unit p -> unit q -> Rq p = Rq q -> p = q \/ p = qscale (-1) q.
Proof.
  intros U W E.
  assert (R : Rq (otimes p (inverse q)) = mid).
  { rewrite Rq_otimes by (try assumption; apply unit_inverse; assumption). rewrite E. apply mat_ext. intros v.
    rewrite mapply_mmul, <- !rotp_matrix, rotp_inverse, rota_rotp by assumption. rewrite mapply_mid. reflexivity. }
  apply Rq_mid in R; [|apply unit_otimes; [|apply unit_inverse]; assumption].
  assert (B : p = otimes (otimes p (inverse q)) q) by (rewrite otimes_assoc, otimes_inv_l, otimes_1_r by assumption; reflexivity).
  destruct R as [R|R]; rewrite R in B; [left|right]; rewrite B at 1; destruct q; vec_eq; f_equal; ring.
Qed.
Lemma from_R_Rq q : unit q -> exists p, from_R (Rq q) = Some p /\ (p = q \/ p = qscale (-1) q).
Proof.
  intros U. destruct (from_R_rotation _ (Rq_rotation q U)) as (p & E & W & R). exists p. split; [exact E|]. apply Rq_inj; assumption.
Qed.
Lemma rotation_is_Rq m : rotation m -> exists q, unit q /\ m = Rq q.
Proof. intros H. destruct (from_R_rotation m H) as (q & _ & U & E). exists q. split; [exact U|symmetry; exact E]. Qed.
Lemma rotation_transpose m : rotation m -> rotation (transpose m).
Proof.
  intros H. destruct (rotation_is_Rq m H) as (q & U & ->).
  replace (transpose (Rq q)) with (Rq (inverse q)) by (destruct q; vec_eq; f_equal; ring). apply Rq_rotation, unit_inverse, U.
Qed.
Lemma rotation_shape m : rotation m -> keeps_shape (mapply m).
Proof. intros H. destruct (rotation_is_Rq m H) as (q & U & ->). intros a b. rewrite <- !rotp_matrix. apply rotp_shape, U. Qed.
Lemma rotation_undo m : rotation m -> undo (mapply m) (mapply (transpose m)).
Proof.
  intros H v. rewrite <- !mapply_mmul, rotation_rows, rotation_cols, mapply_mid by exact H. split; reflexivity.
Qed.
Lemma rotation_mmul a b : rotation a -> rotation b -> rotation (mmul a b).
Proof.
  intros HA HB. destruct (rotation_is_Rq a HA) as (p & U & ->). destruct (rotation_is_Rq b HB) as (q & W & ->).
  rewrite <- Rq_otimes by assumption. apply Rq_rotation, unit_otimes; assumption.
Qed.

(** ** Dual quaternions *)
Definition orth (p q : quat) : R := qw p * qw q + qx p * qx q + qy p * qy q + qz p * qz q.
Lemma qscale_otimes_l s p q : otimes (qscale s p) q = qscale s (otimes p q).
Proof. destruct p, q. vec_eq. f_equal; ring. Qed.
Lemma qscale_otimes_r s p q : otimes p (qscale s q) = qscale s (otimes p q).
Proof. destruct p, q. vec_eq. f_equal; ring. Qed.
Lemma translation_of q t : unit q -> translation (dq_of q t) = t.
Proof.
  intros U. unfold translation, dq_of. cbn [real dual]. rewrite qscale_otimes_l, otimes_assoc, otimes_inv_r, otimes_1_r by exact U.
  destruct t. vec_eq. f_equal; field.
Qed.
Lemma dq_of_orth q t : orth q (dual (dq_of q t)) = 0.
Proof. destruct q, t. unfold orth, dq_of. vec_eq. ring. Qed.
Lemma dq_is_of a : unit (real a) -> orth (real a) (dual a) = 0 -> a = dq_of (real a) (translation a).
Proof.
  destruct a as [r d]. unfold orth, dq_of, translation. cbn [real dual]. intros U O. f_equal.
  assert (P : make_pure (vscale 2 (bar (otimes d (inverse r)))) = qscale 2 (otimes d (inverse r))).
  { destruct r, d. vec_eq. f_equal; lra. }
  rewrite P, qscale_otimes_l, otimes_assoc, otimes_inv_l, otimes_1_r by exact U. destruct d. vec_eq. f_equal; field.
Qed.
Lemma pure_rota_comm q v : unit q -> otimes (make_pure (rota q v)) q = otimes q (make_pure v).
Proof. intros U. rewrite (sandwich q v U), otimes_assoc, otimes_inv_l, otimes_1_r by exact U. reflexivity. Qed.
Lemma dq_mul_of q t p s : unit q -> dq_mul (dq_of q t) (dq_of p s) = dq_of (otimes q p) (vadd (rota q s) t).
Proof.
  intros U. unfold dq_mul, dq_of. cbn [real dual]. f_equal.
  assert (A : make_pure (vadd (rota q s) t) = qadd (make_pure (rota q s)) (make_pure t)) by (unfold make_pure, vadd, qadd; cbn; f_equal; ring).
  assert (B : forall a b c, otimes (qadd a b) c = qadd (otimes a c) (otimes b c)) by (intros [? ? ? ?] [? ? ? ?] [? ? ? ?]; vec_eq; f_equal; ring).
  rewrite A, B, <- !otimes_assoc, (pure_rota_comm q s U), qscale_otimes_l, qscale_otimes_r, <- otimes_assoc.
  set (x := otimes (otimes q (make_pure s)) p). set (y := otimes (otimes (make_pure t) q) p). clearbody x y. destruct x, y. vec_eq. f_equal; ring.
Qed.
Lemma dq_inverse_of q t : unit q -> dq_inverse (dq_of q t) = dq_of (inverse q) (vneg (rotp q t)).
Proof.
  intros U. unfold dq_inverse, dq_of. cbn [real dual]. f_equal.
  assert (C : otimes (make_pure (rotp q t)) (inverse q) = otimes (inverse q) (make_pure t)).
  { rewrite <- rota_inverse. apply pure_rota_comm, unit_inverse, U. }
  replace (make_pure (vneg (rotp q t))) with (qscale (-1) (make_pure (rotp q t))) by (unfold make_pure, vneg, qscale; cbn; f_equal; ring).
  rewrite qscale_otimes_l, C. destruct q, t. vec_eq. f_equal; ring.
Qed.
Lemma transforma_of q t v : unit q -> transforma (dq_of q t) v = vadd (rota q v) t.
Proof. intros U. unfold transforma. rewrite translation_of by exact U. reflexivity. Qed.
Lemma transformp_of q t v : unit q -> transformp (dq_of q t) v = rotp q (vsub v t).
Proof. intros U. unfold transformp. rewrite translation_of by exact U. reflexivity. Qed.
Lemma vsub_vadd v t : vsub (vadd v t) t = v.
Proof. destruct v, t. vec_eq. f_equal; ring. Qed.
Lemma vadd_vsub v t : vadd (vsub v t) t = v.
Proof. destruct v, t. vec_eq. f_equal; ring. Qed.
Lemma rota_add q a b : rota q (vadd a b) = vadd (rota q a) (rota q b).
Proof. rewrite !rota_matrix. apply mapply_add. Qed.
Lemma rotp_sub q a b : rotp q (vsub a b) = vsub (rotp q a) (rotp q b).
Proof. rewrite !rotp_matrix. apply mapply_sub. Qed.
Lemma rota_sub q a b : rota q (vsub a b) = vsub (rota q a) (rota q b).
Proof. rewrite !rota_matrix. apply mapply_sub. Qed.
Lemma rota_neg q a : rota q (vneg a) = vneg (rota q a).
Proof. rewrite !rota_matrix. apply mapply_neg. Qed.

Lemma transform_undo q t : unit q -> undo (transforma (dq_of q t)) (transformp (dq_of q t)).
Proof.
  intros U v. rewrite !transforma_of, !transformp_of by exact U. rewrite rota_rotp, vsub_vadd, rotp_rota, vadd_vsub by exact U. split; reflexivity.
Qed.
Lemma dist_shape f a b : (forall a b, f (vsub a b) = vsub (f a) (f b)) -> keeps_shape f -> dist (f a) (f b) = dist a b.
Proof. intros L K. unfold dist. rewrite <- L. apply norm_shape, K. Qed.
Lemma transforma_dist q t : unit q -> keeps_distances (transforma (dq_of q t)).
Proof.
  intros U a b. rewrite !transforma_of by exact U. rewrite <- (dist_shape (rota q) a b (rota_sub q) (rota_shape q U)).
  unfold dist. f_equal. destruct (rota q a), (rota q b), t. vec_eq. f_equal; ring.
Qed.
Lemma transformp_dist q t : unit q -> keeps_distances (transformp (dq_of q t)).
Proof.
  intros U a b. rewrite !transformp_of by exact U. rewrite (dist_shape (rotp q) _ _ (rotp_sub q) (rotp_shape q U)).
  unfold dist. f_equal. destruct a, b, t. vec_eq. f_equal; ring.
Qed.
Lemma vadd_assoc a b c : vadd (vadd a b) c = vadd a (vadd b c).
Proof. destruct a, b, c. vec_eq. f_equal; ring. Qed.
Lemma transforma_mul q t p s v : unit q -> unit p -> transforma (dq_mul (dq_of q t) (dq_of p s)) v = transforma (dq_of q t) (transforma (dq_of p s) v).
Proof.
  intros U W. rewrite dq_mul_of by exact U. rewrite !transforma_of by (try assumption; apply unit_otimes; assumption).
  rewrite rota_otimes, rota_add, vadd_assoc by assumption. reflexivity.
Qed.
Lemma transformp_mul q t p s v : unit q -> unit p -> transformp (dq_mul (dq_of q t) (dq_of p s)) v = transformp (dq_of p s) (transformp (dq_of q t) v).
Proof.
  intros U W. rewrite dq_mul_of by exact U. rewrite !transformp_of by (try assumption; apply unit_otimes; assumption).
  rewrite rotp_otimes by assumption. f_equal.
  replace (vsub v (vadd (rota q s) t)) with (vsub (vsub v t) (rota q s)) by (destruct v, t, (rota q s); vec_eq; f_equal; ring).
  rewrite rotp_sub, rotp_rota by exact U. reflexivity.
Qed.
Lemma transforma_inverse q t v : unit q -> transforma (dq_inverse (dq_of q t)) v = transformp (dq_of q t) v.
Proof.
  intros U. rewrite dq_inverse_of by exact U. rewrite transforma_of, transformp_of by (try assumption; apply unit_inverse; assumption).
  rewrite rota_inverse, rotp_sub. destruct (rotp q v), (rotp q t). vec_eq. f_equal; ring.
Qed.
Lemma transformp_inverse q t v : unit q -> transformp (dq_inverse (dq_of q t)) v = transforma (dq_of q t) v.
Proof.
  intros U. rewrite dq_inverse_of by exact U. rewrite transforma_of, transformp_of by (try assumption; apply unit_inverse; assumption).
  rewrite rotp_inverse, rota_sub, rota_neg, rota_rotp by exact U. destruct (rota q v), t. vec_eq. f_equal; ring.
Qed.
Lemma dq_of_0 : dq_of Identity (V 0 0 0) = dq_id.
Proof. unfold dq_of, dq_id. vec_eq. f_equal. f_equal; ring. Qed.
Lemma dq_inv_r q t : unit q -> dq_mul (dq_of q t) (dq_inverse (dq_of q t)) = dq_id.
Proof.
  intros U. rewrite dq_inverse_of, dq_mul_of, otimes_inv_r, rota_neg, rota_rotp by exact U. rewrite <- dq_of_0. f_equal.
  destruct t. vec_eq. f_equal; ring.
Qed.
Lemma dq_inv_l q t : unit q -> dq_mul (dq_inverse (dq_of q t)) (dq_of q t) = dq_id.
Proof.
  intros U. rewrite dq_inverse_of, dq_mul_of, otimes_inv_l, rota_inverse by (try assumption; apply unit_inverse; assumption). rewrite <- dq_of_0. f_equal.
  destruct (rotp q t). vec_eq. f_equal; ring.
Qed.
Lemma dq_mul_assoc a b c : dq_mul (dq_mul a b) c = dq_mul a (dq_mul b c).
Proof. destruct a as [[? ? ? ?] [? ? ? ?]], b as [[? ? ? ?] [? ? ? ?]], c as [[? ? ? ?] [? ? ? ?]]. unfold dq_mul. vec_eq. f_equal; f_equal; ring. Qed.

(** ** SE3 *)
Lemma se_mul_assoc a b c : se_mul (se_mul a b) c = se_mul a (se_mul b c).
Proof. destruct a as [[] []], b as [[] []], c as [[] []]. unfold se_mul. vec_eq. f_equal; f_equal; ring. Qed.
Lemma se_id_l a : se_mul se_id a = a.
Proof. destruct a as [[] []]. unfold se_mul, se_id. vec_eq. f_equal; f_equal; ring. Qed.
Lemma se_id_r a : se_mul a se_id = a.
Proof. destruct a as [[] []]. unfold se_mul, se_id. vec_eq. f_equal; f_equal; ring. Qed.
Lemma se_inv_r a : rotation (rot a) -> se_mul a (se_inverse a) = se_id.
Proof.
  intros H. destruct (rotation_undo _ H (tr a)) as [D _]. unfold se_mul, se_inverse, se_id. cbv zeta. cbn [rot tr].
  rewrite rotation_rows by exact H. f_equal. rewrite mapply_neg, D. destruct (tr a). vec_eq. f_equal; ring.
Qed.
Lemma se_inv_l a : rotation (rot a) -> se_mul (se_inverse a) a = se_id.
Proof.
  intros H. unfold se_mul, se_inverse, se_id. cbv zeta. cbn [rot tr].
  rewrite rotation_cols by exact H. f_equal. destruct (mapply (transpose (rot a)) (tr a)). vec_eq. f_equal; ring.
Qed.
Lemma se_transform_undo a : rotation (rot a) -> undo (se_transformp a) (se_transforma a).
Proof.
  intros H v. unfold se_transformp, se_transforma. rewrite (proj1 (rotation_undo _ H _)), vsub_vadd, (proj2 (rotation_undo _ H _)), vadd_vsub. split; reflexivity.
Qed.
Lemma se_transformp_mul a b v : se_transformp (se_mul a b) v = se_transformp a (se_transformp b v).
Proof. unfold se_transformp, se_mul. cbn [rot tr]. rewrite mapply_mmul, mapply_add, vadd_assoc. reflexivity. Qed.
Lemma se_transforma_inverse a v : rotation (rot a) -> se_transformp (se_inverse a) v = se_transforma a v.
Proof.
  intros H. unfold se_transformp, se_transforma, se_inverse. cbv zeta. cbn [rot tr]. rewrite mapply_sub.
  destruct (mapply (transpose (rot a)) v), (mapply (transpose (rot a)) (tr a)). vec_eq. f_equal; ring.
Qed.
Lemma se_transformp_dist a : rotation (rot a) -> keeps_distances (se_transformp a).
Proof.
  intros H x y. unfold se_transformp. rewrite <- (dist_shape (mapply (rot a)) x y (mapply_sub _) (rotation_shape _ H)).
  unfold dist. f_equal. destruct (mapply (rot a) x), (mapply (rot a) y), (tr a). vec_eq. f_equal; ring.
Qed.
Lemma se_transforma_mul a b v : rotation (rot a) -> rotation (rot b) -> se_transforma (se_mul a b) v = se_transforma b (se_transforma a v).
Proof.
  intros HA HB.
  assert (I : forall x u, rotation (rot x) -> se_transforma x (se_transformp x u) = u) by (intros x u Hx; apply (se_transform_undo x Hx)).
  rewrite <- (I (se_mul a b) (se_transforma b (se_transforma a v))) by (apply rotation_mmul; assumption).
  f_equal. rewrite se_transformp_mul, (proj1 (se_transform_undo b HB _)), (proj1 (se_transform_undo a HA _)). reflexivity.
Qed.
