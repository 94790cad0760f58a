(** Proofs about rectifying: the factor U V^T of a singular value decomposition is the
    orthonormal matrix nearest to the matrix. *)
From Coq Require Import Reals Lra Psatz List.
From Verif Require Import RotModel RotSpec RotProofs RectModel RectSpec.
Import ListNotations.
Local Open Scope R_scope.

Ltac mat_eq := unfold mmul, transpose, madd, mscale, mid, trace, diag, triple, dot, cross in *;
  cbn [vx vy vz m00 m01 m02 m10 m11 m12 m20 m21 m22] in *.
Lemma mmul_assoc a b c : mmul (mmul a b) c = mmul a (mmul b c).
Proof. destruct a, b, c. mat_eq. f_equal; ring. Qed.
Lemma mmul_mid a : mmul a mid = a.
Proof. destruct a. mat_eq. f_equal; ring. Qed.
Lemma mid_mmul a : mmul mid a = a.
Proof. destruct a. mat_eq. f_equal; ring. Qed.
Lemma orthonormal_iff m : orthonormal m <-> mmul (transpose m) m = mid.
Proof.
  unfold orthonormal. destruct m as [a b c d e f g h i]. mat_eq. split.
  - intros (A & B & C & D & E & F). f_equal; lra.
  - intros E. injection E. intros. repeat split; lra.
Qed.

(** ** The inverse of an orthonormal matrix is its transpose *)
Lemma triple_mmul a b : triple (mmul a b) = triple a * triple b.
Proof. destruct a, b. mat_eq. ring. Qed.
Lemma triple_transpose a : triple (transpose a) = triple a.
Proof. destruct a. mat_eq. ring. Qed.
Lemma triple_mid : triple mid = 1.
Proof. mat_eq. ring. Qed.
Lemma triple_diag s : triple (diag s) = vx s * vy s * vz s.
Proof. destruct s. mat_eq. ring. Qed.
Definition adj (m : mat) : mat :=
  M (m11 m * m22 m - m12 m * m21 m) (m02 m * m21 m - m01 m * m22 m) (m01 m * m12 m - m02 m * m11 m)
    (m12 m * m20 m - m10 m * m22 m) (m00 m * m22 m - m02 m * m20 m) (m02 m * m10 m - m00 m * m12 m)
    (m10 m * m21 m - m11 m * m20 m) (m01 m * m20 m - m00 m * m21 m) (m00 m * m11 m - m01 m * m10 m).
Lemma adj_r m : mmul m (adj m) = mscale (triple m) mid.
Proof. destruct m. unfold adj. mat_eq. f_equal; ring. Qed.
Lemma mmul_mscale s a b : mmul a (mscale s b) = mscale s (mmul a b).
Proof. destruct a, b. mat_eq. f_equal; ring. Qed.
Lemma mscale_mscale s t a : mscale s (mscale t a) = mscale (s * t) a.
Proof. destruct a. mat_eq. f_equal; ring. Qed.
Lemma mscale_1 a : mscale 1 a = a.
Proof. destruct a. mat_eq. f_equal; ring. Qed.
Lemma orthonormal_triple m : orthonormal m -> triple m * triple m = 1.
Proof. intros O. apply orthonormal_iff in O. rewrite <- (triple_transpose m) at 1. rewrite <- triple_mmul, O. apply triple_mid. Qed.
Lemma orthonormal_r m : orthonormal m -> mmul m (transpose m) = mid.
Proof.
  intros O. pose proof (orthonormal_triple m O) as T. apply orthonormal_iff in O.
  assert (E : mscale (triple m) (transpose m) = adj m).
  { transitivity (mmul (transpose m) (mmul m (adj m))).
    - rewrite adj_r, mmul_mscale, mmul_mid. reflexivity.
    - rewrite <- mmul_assoc, O. apply mid_mmul. }
  assert (F : mmul m (mscale (triple m) (transpose m)) = mscale (triple m) mid) by (rewrite E; apply adj_r).
  rewrite mmul_mscale in F. apply (f_equal (mscale (triple m))) in F. rewrite !mscale_mscale, T, !mscale_1 in F. exact F.
Qed.
Lemma orthonormal_transpose m : orthonormal m -> orthonormal (transpose m).
Proof. intros O. apply orthonormal_iff. rewrite transpose_transpose. apply orthonormal_r, O. Qed.
Lemma orthonormal_mmul a b : orthonormal a -> orthonormal b -> orthonormal (mmul a b).
Proof.
  intros A B. apply orthonormal_iff in A. apply orthonormal_iff in B. apply orthonormal_iff.
  rewrite transpose_mmul, mmul_assoc, <- (mmul_assoc (transpose a)), A, mid_mmul. exact B.
Qed.
Lemma orthonormal_mid : orthonormal mid.
Proof. apply orthonormal_iff. apply mmul_mid. Qed.

(** ** Rotations are the orthonormal matrices of positive triple product *)
Lemma rotation_orthonormal m : rotation m -> orthonormal m.
Proof. intros H. apply orthonormal_iff, rotation_cols, H. Qed.
Lemma rotation_triple m : rotation m -> triple m = 1.
Proof.
  unfold rotation. destruct m as [a b c d e f g h i]. mat_eq. intros (A & B & C & E). injection E as -> -> ->.
  transitivity ((a * a + b * b + c * c) * (d * d + e * e + f * f) - (a * d + b * e + c * f) * (a * d + b * e + c * f)); [ring|]. rewrite A, B, C. ring.
Qed.
Lemma sub_zero x y z : x * x + y * y + z * z = 0 -> x = 0 /\ y = 0 /\ z = 0.
Proof. intros H. repeat split; nra. Qed.
Lemma orthonormal_rotation m : orthonormal m -> 0 < triple m -> rotation m.
Proof.
  intros O T. pose proof (orthonormal_triple m O) as T1. assert (T2 : triple m = 1) by nra. clear T T1.
  apply orthonormal_r in O. destruct m as [a b c d e f g h i]. unfold rotation. mat_eq. injection O. intros.
  split; [lra|]. split; [lra|]. split; [lra|].
  assert (AA : a * a + b * b + c * c = 1) by lra. assert (BB : d * d + e * e + f * f = 1) by lra. assert (AB : a * d + b * e + c * f = 0) by lra.
  assert (CC : g * g + h * h + i * i = 1) by lra.
  assert (TT : (b * f - c * e) * g + (c * d - a * f) * h + (a * e - b * d) * i = 1) by (rewrite <- T2; ring).
  assert (NN : (b * f - c * e) * (b * f - c * e) + (c * d - a * f) * (c * d - a * f) + (a * e - b * d) * (a * e - b * d) = 1).
  { transitivity ((a * a + b * b + c * c) * (d * d + e * e + f * f) - (a * d + b * e + c * f) * (a * d + b * e + c * f)); [ring|]. rewrite AA, BB, AB. ring. }
  destruct (sub_zero (g - (b * f - c * e)) (h - (c * d - a * f)) (i - (a * e - b * d))) as (X & Y & Z).
  { transitivity ((g * g + h * h + i * i) - 2 * ((b * f - c * e) * g + (c * d - a * f) * h + (a * e - b * d) * i) +
      ((b * f - c * e) * (b * f - c * e) + (c * d - a * f) * (c * d - a * f) + (a * e - b * d) * (a * e - b * d))); [ring|]. rewrite CC, TT, NN. ring. }
  f_equal; lra.
Qed.

(** ** Inner products of matrices *)
Definition ip (a b : mat) : R := trace (mmul (transpose a) b).
Lemma trace_comm a b : trace (mmul a b) = trace (mmul b a).
Proof. destruct a, b. mat_eq. ring. Qed.
Lemma mdist2_ip a b : mdist2 a b = ip a a - 2 * ip b a + ip b b.
Proof. destruct a, b. unfold mdist2, ip. mat_eq. ring. Qed.
Lemma ip_orthonormal m : orthonormal m -> ip m m = 3.
Proof. intros O. apply orthonormal_iff in O. unfold ip. rewrite O. mat_eq. ring. Qed.
Lemma ip_svd r u s v : ip r (mmul (mmul u (diag s)) (transpose v)) = ip (mmul (mmul (transpose u) r) v) (diag s).
Proof.
  unfold ip. rewrite <- mmul_assoc, trace_comm, !transpose_mmul, transpose_transpose.
  rewrite <- !mmul_assoc. reflexivity.
Qed.
Lemma ip_diag w s : ip w (diag s) = m00 w * vx s + m11 w * vy s + m22 w * vz s.
Proof. destruct w, s. unfold ip. mat_eq. ring. Qed.
Lemma orthonormal_diag w : orthonormal w -> -1 <= m00 w <= 1 /\ -1 <= m11 w <= 1 /\ -1 <= m22 w <= 1.
Proof. unfold orthonormal. destruct w as [a b c d e f g h i]. mat_eq. intros (A & B & C & _). repeat split; nra. Qed.
Lemma orthonormal_diag1 w : orthonormal w -> m00 w = 1 -> m11 w = 1 -> m22 w = 1 -> w = mid.
Proof.
  unfold orthonormal. destruct w as [a b c d e f g h i]. mat_eq. intros (A & B & C & _) -> -> ->.
  assert (d = 0) by nra. assert (g = 0) by nra. assert (b = 0) by nra. assert (h = 0) by nra. assert (c = 0) by nra. assert (f = 0) by nra. subst. reflexivity.
Qed.

Section Svd.
Variables (m : mat) (d : svd3).
Hypothesis D : is_svd m d.
Let q := mmul (sU d) (transpose (sV d)).
Let total := vx (ss d) + vy (ss d) + vz (ss d).
(** The matrix [r] in the bases of the decomposition *)
Definition inner (r : mat) : mat := mmul (mmul (transpose (sU d)) r) (sV d).
Lemma q_orthonormal : orthonormal q.
Proof. destruct D as (U & VV & _). apply orthonormal_mmul; [exact U|apply orthonormal_transpose, VV]. Qed.
Lemma inner_orthonormal r : orthonormal r -> orthonormal (inner r).
Proof. destruct D as (U & VV & _). intros O. apply orthonormal_mmul; [apply orthonormal_mmul; [apply orthonormal_transpose, U|exact O]|exact VV]. Qed.
Lemma inner_q : inner q = mid.
Proof.
  destruct D as (U & VV & _). apply orthonormal_iff in U. apply orthonormal_iff in VV. unfold inner, q.
  rewrite <- mmul_assoc, U, mid_mmul. exact VV.
Qed.
Lemma inner_back r : mmul (mmul (sU d) (inner r)) (transpose (sV d)) = r.
Proof.
  destruct D as (U & VV & _). apply orthonormal_r in U. apply orthonormal_r in VV. unfold inner.
  rewrite <- !mmul_assoc, U, mid_mmul, mmul_assoc, VV. apply mmul_mid.
Qed.
Lemma ip_inner r : ip r m = m00 (inner r) * vx (ss d) + m11 (inner r) * vy (ss d) + m22 (inner r) * vz (ss d).
Proof. destruct D as (_ & _ & _ & _ & _ & E). rewrite E, ip_svd. apply ip_diag. Qed.
Lemma ip_q : ip q m = total.
Proof. rewrite ip_inner, inner_q. unfold total. mat_eq. ring. Qed.
Lemma ip_le r : orthonormal r -> ip r m <= total.
Proof.
  intros O. rewrite ip_inner. destruct (orthonormal_diag _ (inner_orthonormal r O)) as (A & B & C).
  destruct D as (_ & _ & X & Y & Z & _). unfold total. nra.
Qed.
Lemma triple_svd : triple m = triple q * (vx (ss d) * vy (ss d) * vz (ss d)).
Proof. destruct D as (_ & _ & _ & _ & _ & E). rewrite E. unfold q. rewrite !triple_mmul, triple_diag. ring. Qed.
Lemma values_pos : triple m <> 0 -> 0 < vx (ss d) /\ 0 < vy (ss d) /\ 0 < vz (ss d).
Proof.
  intros T. rewrite triple_svd in T. destruct D as (_ & _ & X & Y & Z & _).
  repeat split; apply Rnot_le_lt; intros L; apply T;
    [replace (vx (ss d)) with 0 by lra|replace (vy (ss d)) with 0 by lra|replace (vz (ss d)) with 0 by lra]; ring.
Qed.
Lemma ip_eq r : orthonormal r -> triple m <> 0 -> ip r m = total -> r = q.
Proof.
  intros O T E. rewrite ip_inner in E. destruct (values_pos T) as (X & Y & Z). destruct (orthonormal_diag _ (inner_orthonormal r O)) as (A & B & C).
  unfold total in E. rewrite <- (inner_back r), (orthonormal_diag1 (inner r)).
  - rewrite mmul_mid. reflexivity.
  - apply inner_orthonormal, O.
  - nra.
  - nra.
  - nra.
Qed.
Lemma q_nearest r : orthonormal r -> mdist2 m q <= mdist2 m r.
Proof. intros O. rewrite !mdist2_ip, (ip_orthonormal r O), (ip_orthonormal q q_orthonormal), ip_q. pose proof (ip_le r O). lra. Qed.
Lemma q_only r : orthonormal r -> triple m <> 0 -> mdist2 m r <= mdist2 m q -> r = q.
Proof.
  intros O T L. rewrite !mdist2_ip, (ip_orthonormal r O), (ip_orthonormal q q_orthonormal), ip_q in L.
  apply ip_eq; [exact O|exact T|]. pose proof (ip_le r O). lra.
Qed.
Lemma q_triple : triple m <> 0 -> 0 < triple m * triple q.
Proof.
  intros T. destruct (values_pos T) as (X & Y & Z). rewrite triple_svd. pose proof (orthonormal_triple q q_orthonormal) as Q.
  replace (triple q * (vx (ss d) * vy (ss d) * vz (ss d)) * triple q) with (triple q * triple q * (vx (ss d) * vy (ss d) * vz (ss d))) by ring.
  rewrite Q, Rmult_1_l. apply Rmult_lt_0_compat; [apply Rmult_lt_0_compat; assumption|assumption].
Qed.
End Svd.

(** ** Two decompositions of an invertible matrix agree *)
Lemma svd_unique m d e : is_svd m d -> is_svd m e -> triple m <> 0 -> mmul (sU d) (transpose (sV d)) = mmul (sU e) (transpose (sV e)).
Proof.
  intros D E T. apply (q_only m e E _ (q_orthonormal m d D) T). apply (q_nearest m d D), (q_orthonormal m e E).
Qed.

(** ** Matrices nearer than 1 to a rotation *)
Lemma rotation_trace w : rotation w -> -1 <= trace w.
Proof.
  intros H. destruct (rotation_is_Rq w H) as (q & U & ->). unfold unit in U. destruct q as [w0 x y z]. unfold Rq, trace. cbn [m00 m11 m22 qw qx qy qz] in *. nra.
Qed.
Lemma improper_trace w : orthonormal w -> triple w < 0 -> trace w <= 1.
Proof.
  intros O T. assert (H : rotation (mscale (-1) w)).
  { apply orthonormal_rotation.
    - revert O. unfold orthonormal. destruct w. mat_eq. intros (A & B & C & E & F & G). repeat split; lra.
    - replace (triple (mscale (-1) w)) with (- triple w) by (destruct w; mat_eq; ring). lra. }
  apply rotation_trace in H. replace (trace (mscale (-1) w)) with (- trace w) in H by (destruct w; mat_eq; ring). lra.
Qed.
Lemma sq_bound a s : 0 <= s -> 0 <= a -> s * s - 2 * a * s >= - (a * a).
Proof. intros _ _. pose proof (Rle_0_sqr (s - a)) as H. unfold Rsqr in H. lra. Qed.
Lemma sq_bound1 a s : 0 <= s -> -1 <= a <= 1 -> s * s - 2 * a * s >= -1.
Proof. intros _ A. pose proof (Rle_0_sqr (s - a)) as H. unfold Rsqr in H. assert (a * a <= 1) by nra. lra. Qed.
Lemma sq_bound0 a s : 0 <= s -> a <= 0 -> s * s - 2 * a * s >= 0.
Proof. intros S A. assert (0 <= s * s) by nra. assert (0 <= - a * s) by (apply Rmult_le_pos; lra). lra. Qed.
Lemma far_sum a b c x y z : -1 <= a <= 1 -> -1 <= b <= 1 -> -1 <= c <= 1 -> 0 <= x -> 0 <= y -> 0 <= z ->
  x * y * z = 0 \/ a + b + c <= 1 -> 1 <= (x * x + y * y + z * z) - 2 * (a * x + b * y + c * z) + 3.
Proof.
  intros A B C X Y Z H. pose proof (sq_bound1 a x X A). pose proof (sq_bound1 b y Y B). pose proof (sq_bound1 c z Z C).
  destruct H as [H|H].
  - apply Rmult_integral in H. destruct H as [H|H]; [apply Rmult_integral in H; destruct H as [H|H]|]; subst; lra.
  - destruct (Rle_dec a 0) as [LA|LA]; [pose proof (sq_bound0 a x X LA); lra|].
    destruct (Rle_dec b 0) as [LB|LB]; [pose proof (sq_bound0 b y Y LB); lra|].
    destruct (Rle_dec c 0) as [LC|LC]; [pose proof (sq_bound0 c z Z LC); lra|].
    pose proof (sq_bound a x X ltac:(lra)). pose proof (sq_bound b y Y ltac:(lra)). pose proof (sq_bound c z Z ltac:(lra)).
    assert (a * a + b * b + c * c <= 1) by nra. lra.
Qed.
Lemma ip_self m d : is_svd m d -> ip m m = vx (ss d) * vx (ss d) + vy (ss d) * vy (ss d) + vz (ss d) * vz (ss d).
Proof.
  intros D. rewrite (ip_inner m d D). destruct D as (U & VV & _ & _ & _ & E).
  assert (I : inner d m = diag (ss d)).
  { unfold inner. rewrite E. apply orthonormal_iff in U. apply orthonormal_iff in VV.
    rewrite <- !mmul_assoc, U, mid_mmul, mmul_assoc, VV, mmul_mid. reflexivity. }
  rewrite I. destruct (ss d). mat_eq. ring.
Qed.
Lemma near_triple m d r : is_svd m d -> rotation r -> mdist2 m r < 1 -> 0 < triple m.
Proof.
  intros D H L. apply Rnot_le_lt. intros T. apply (Rlt_not_le _ _ L). clear L. pose proof (rotation_orthonormal r H) as O.
  rewrite mdist2_ip, (ip_orthonormal r O), (ip_self m d D), (ip_inner m d D r).
  destruct (orthonormal_diag _ (inner_orthonormal m d D r O)) as (A & B & C). pose proof D as (U & VV & X & Y & Z & _).
  apply far_sum; try assumption.
  destruct (Req_dec (vx (ss d) * vy (ss d) * vz (ss d)) 0) as [E|E]; [left; exact E|]. right.
  apply (improper_trace (inner d r)); [apply (inner_orthonormal m d D r O)|].
  unfold inner. rewrite !triple_mmul, triple_transpose, (rotation_triple r H), Rmult_1_r.
  pose proof (triple_svd m d D) as TS. rewrite triple_mmul, triple_transpose in TS.
  pose proof (orthonormal_triple _ U). pose proof (orthonormal_triple _ VV).
  set (p := vx (ss d) * vy (ss d) * vz (ss d)) in *. assert (P : 0 <= p) by (unfold p; apply Rmult_le_pos; [apply Rmult_le_pos|]; assumption). clearbody p.
  apply Rnot_le_lt. intros N. assert (0 <= triple (sU d) * triple (sV d)) by exact N.
  assert (triple (sU d) * triple (sV d) <> 0) by nra. nra.
Qed.
Lemma four_sq x y z : (x - y) * (x - y) <= 2 * ((z - x) * (z - x)) + 2 * ((z - y) * (z - y)).
Proof. pose proof (Rle_0_sqr (x + y - 2 * z)) as H. unfold Rsqr in H. lra. Qed.
Lemma mdist2_tri q r m : mdist2 q r <= 2 * mdist2 m q + 2 * mdist2 m r.
Proof.
  unfold mdist2. pose proof (four_sq (m00 q) (m00 r) (m00 m)). pose proof (four_sq (m01 q) (m01 r) (m01 m)). pose proof (four_sq (m02 q) (m02 r) (m02 m)).
  pose proof (four_sq (m10 q) (m10 r) (m10 m)). pose proof (four_sq (m11 q) (m11 r) (m11 m)). pose proof (four_sq (m12 q) (m12 r) (m12 m)).
  pose proof (four_sq (m20 q) (m20 r) (m20 m)). pose proof (four_sq (m21 q) (m21 r) (m21 m)). pose proof (four_sq (m22 q) (m22 r) (m22 m)). lra.
Qed.

(** ** Rectifying *)
Section Rectify.
Variable svd : mat -> svd3.
Lemma rect_orthonormal m : is_svd m (svd m) -> orthonormal (rectified svd m).
Proof. exact (q_orthonormal m (svd m)). Qed.
Lemma rect_nearest m : is_svd m (svd m) -> forall r, orthonormal r ->
  mdist2 m (rectified svd m) <= mdist2 m r /\ (triple m <> 0 -> mdist2 m r <= mdist2 m (rectified svd m) -> r = rectified svd m).
Proof. intros D r O. split; [exact (q_nearest m _ D r O)|exact (q_only m _ D r O)]. Qed.
Lemma rect_rotation m : is_svd m (svd m) -> 0 < triple m -> rotation (rectified svd m).
Proof.
  intros D T. apply orthonormal_rotation; [apply rect_orthonormal, D|].
  pose proof (q_triple m _ D ltac:(lra)) as Q. fold (rectified svd m) in Q. unfold rectified, orthonormalize. cbv zeta. nra.
Qed.
Lemma rect_reflection m : is_svd m (svd m) -> triple m < 0 -> ~ rotation (rectified svd m).
Proof.
  intros D T H. apply rotation_triple in H. unfold rectified, orthonormalize in H. cbv zeta in H.
  pose proof (q_triple m _ D ltac:(lra)) as Q. rewrite H in Q. lra.
Qed.
Lemma rect_near m r : is_svd m (svd m) -> rotation r -> mdist2 m r < 1 ->
  rotation (rectified svd m) /\ mdist2 (rectified svd m) r <= 4 * mdist2 m r.
Proof.
  intros D H L. split; [apply rect_rotation; [exact D|exact (near_triple m _ r D H L)]|].
  pose proof (mdist2_tri (rectified svd m) r m). pose proof (proj1 (rect_nearest m D r (rotation_orthonormal r H))). lra.
Qed.
Lemma svd_self m : orthonormal m -> is_svd m (SVD m (V 1 1 1) mid).
Proof.
  intros O. unfold is_svd. cbn [sU sV ss vx vy vz]. split; [exact O|]. split; [apply orthonormal_mid|]. split; [lra|]. split; [lra|]. split; [lra|].
  destruct m. mat_eq. f_equal; ring.
Qed.
Lemma orthonormal_triple0 m : orthonormal m -> triple m <> 0.
Proof. intros O E. pose proof (orthonormal_triple m O) as T. rewrite E in T. lra. Qed.
Lemma rect_fixed m : is_svd m (svd m) -> orthonormal m -> rectified svd m = m.
Proof.
  intros D O. unfold rectified, orthonormalize. cbv zeta. rewrite (svd_unique m _ _ D (svd_self m O) (orthonormal_triple0 m O)).
  cbn [sU sV]. destruct m. mat_eq. f_equal; ring.
Qed.
Lemma svd_turned m d a b c : is_svd m d -> orthonormal a -> orthonormal b -> 0 < c ->
  is_svd (mscale c (mmul (mmul a m) b)) (SVD (mmul a (sU d)) (vscale c (ss d)) (mmul (transpose b) (sV d))).
Proof.
  intros (U & VV & X & Y & Z & E) A B C. unfold is_svd. cbn [sU sV ss]. split; [apply orthonormal_mmul; assumption|].
  split; [apply orthonormal_mmul; [apply orthonormal_transpose, B|exact VV]|].
  unfold vscale. cbn [vx vy vz]. split; [nra|]. split; [nra|]. split; [nra|].
  rewrite E, transpose_mmul, transpose_transpose.
  replace (diag (V (c * vx (ss d)) (c * vy (ss d)) (c * vz (ss d)))) with (mscale c (diag (ss d))) by (destruct (ss d); mat_eq; f_equal; ring).
  rewrite mmul_mscale. replace (mmul (mscale c (mmul (mmul a (sU d)) (diag (ss d)))) (mmul (transpose (sV d)) b))
    with (mscale c (mmul (mmul (mmul a (sU d)) (diag (ss d))) (mmul (transpose (sV d)) b))).
  - f_equal. rewrite !mmul_assoc. reflexivity.
  - generalize (mmul (mmul a (sU d)) (diag (ss d))) (mmul (transpose (sV d)) b). intros p q. destruct p, q. mat_eq. f_equal; ring.
Qed.
Lemma triple_scaled c m : triple (mscale c m) = c * c * c * triple m.
Proof. destruct m. mat_eq. ring. Qed.
Lemma rect_turned m a b c : is_svd m (svd m) -> triple m <> 0 -> orthonormal a -> orthonormal b -> 0 < c ->
  let n := mscale c (mmul (mmul a m) b) in is_svd n (svd n) -> rectified svd n = mmul (mmul a (rectified svd m)) b.
Proof.
  intros D T A B C n N. unfold rectified, orthonormalize. cbv zeta.
  assert (TN : triple n <> 0).
  { unfold n. rewrite triple_scaled, !triple_mmul. pose proof (orthonormal_triple0 a A). pose proof (orthonormal_triple0 b B).
    repeat apply Rmult_integral_contrapositive_currified; lra. }
  rewrite (svd_unique n _ _ N (svd_turned m _ a b c D A B C) TN). cbn [sU sV]. rewrite transpose_mmul, transpose_transpose, !mmul_assoc. reflexivity.
Qed.

(** ** Threads *)
Lemma nth_set_nth n k t l : nth_error (set_nth n t l) k = if Nat.eqb n k then (match nth_error l k with Some _ => Some t | None => None end) else nth_error l k.
Proof.
  revert n k. induction l as [|x l IH]; intros n k.
  - destruct n, k; cbn [set_nth nth_error]; match goal with |- context [Nat.eqb ?a ?b] => destruct (Nat.eqb a b) end; reflexivity.
  - destruct n, k; cbn [set_nth nth_error Nat.eqb]; try reflexivity. apply IH.
Qed.
(** What every schedule keeps: the results are orthonormal *)
Definition good_thread (t : thread) : Prop :=
  (forall m, In m (todo t) -> is_svd m (svd m)) /\ (forall p, In p (results t) -> orthonormal (snd p)) /\
  match at_ t with HaveU u => orthonormal u | _ => True end.
Definition begun (w : world) : Prop := exists n t, nth_error (threads w) n = Some t /\ (at_ t <> Idle).
Definition good_solver (s : solver) : Prop := orthonormal (sU s) /\ orthonormal (sV s).
Definition all_good (w : world) : Prop :=
  (forall n t, nth_error (threads w) n = Some t -> good_thread t) /\ (begun w -> good_solver (shared w)).
Lemma step_good n w : all_good w -> all_good (step svd n w).
Proof.
  intros (G & B). unfold step. destruct (nth_error (threads w) n) as [t|] eqn:E; [|split; assumption].
  pose proof (G n t E) as (GT & GR & GU). unfold tstep. destruct (todo t) as [|m r] eqn:ET.
  - split; cbn [threads shared].
    + intros k x K. rewrite nth_set_nth in K. destruct (Nat.eqb n k) eqn:NK; [|exact (G k x K)].
      apply PeanoNat.Nat.eqb_eq in NK. subst k. rewrite E in K. injection K as <-. exact (G n t E).
    + intros (k & x & K & A). apply B. cbn [threads] in K. rewrite nth_set_nth in K. destruct (Nat.eqb n k) eqn:NK.
      * apply PeanoNat.Nat.eqb_eq in NK. subst k. rewrite E in K. injection K as <-. exists n, t. split; assumption.
      * exists k, x. split; assumption.
  - assert (DM : is_svd m (svd m)) by (apply GT; left; reflexivity).
    assert (GS : at_ t <> Idle -> good_solver (shared w)) by (intros A; apply B; exists n, t; split; assumption).
    assert (K1 : forall t' k x, nth_error (set_nth n t' (threads w)) k = Some x -> good_thread t' -> good_thread x).
    { intros t' k x K GT'. rewrite nth_set_nth in K. destruct (Nat.eqb n k) eqn:NK; [|exact (G k x K)].
      apply PeanoNat.Nat.eqb_eq in NK. subst k. rewrite E in K. injection K as <-. exact GT'. }
    destruct (at_ t) as [| |u] eqn:EA.
    + split; cbn [threads shared].
      * intros k x K. apply (K1 _ k x K). split; [exact GT|]. split; [exact GR|exact I].
      * intros _. destruct DM as (U & VV & _). split; assumption.
    + specialize (GS ltac:(discriminate)). split; cbn [threads shared].
      * intros k x K. apply (K1 _ k x K). split; [exact GT|]. split; [exact GR|exact (proj1 GS)].
      * intros _. exact GS.
    + specialize (GS ltac:(discriminate)). split; cbn [threads shared].
      * intros k x K. apply (K1 _ k x K). split; [intros y Y; apply GT; right; exact Y|]. split; [|exact I].
        cbn [results]. intros p P. apply in_app_iff in P. destruct P as [P|P]; [exact (GR p P)|]. destruct P as [<-|[]]. cbn [snd].
        apply orthonormal_mmul; [exact GU|apply orthonormal_transpose, (proj2 GS)].
      * intros _. exact GS.
Qed.
Lemma run_good ns : forall w, all_good w -> all_good (run svd ns w).
Proof. induction ns as [|n ns IH]; intros w H; [exact H|]. apply (IH (step svd n w)), step_good, H. Qed.
Lemma nth_fresh jobs n t : nth_error (fresh jobs) n = Some t -> exists l, nth_error jobs n = Some l /\ t = TH l Idle [].
Proof.
  unfold fresh. rewrite nth_error_map. destruct (nth_error jobs n) as [l|]; [|discriminate]. cbn. intros [= <-]. exists l. split; reflexivity.
Qed.
Lemma fresh_good s jobs : (forall l m, In l jobs -> In m l -> is_svd m (svd m)) -> all_good (W s (fresh jobs)).
Proof.
  intros H. split; cbn [threads shared].
  - intros n t E. apply nth_fresh in E. destruct E as (l & E & ->). apply nth_error_In in E. split; [intros m; apply (H l m E)|]. split; [intros p []|exact I].
  - intros (n & t & E & A). apply nth_fresh in E. destruct E as (l & _ & ->). exfalso. apply A. reflexivity.
Qed.
Lemma any_schedule s jobs ns : (forall l m, In l jobs -> In m l -> is_svd m (svd m)) ->
  forall n t p, nth_error (threads (run svd ns (W s (fresh jobs)))) n = Some t -> In p (results t) -> orthonormal (snd p).
Proof. intros H n t p E P. destruct (run_good ns _ (fresh_good s jobs H)) as (G & _). destruct (G n t E) as (_ & R & _). exact (R p P). Qed.

(** Calls one at a time *)
Definition right (l : list mat) : list (mat * mat) := map (fun m => (m, rectified svd m)) l.
Definition quiet (n : nat) (calls : list nat) (l : list mat) (t : thread) : Prop :=
  t = TH (skipn (count_occ PeanoNat.Nat.eq_dec calls n) l) Idle (right (firstn (count_occ PeanoNat.Nat.eq_dec calls n) l)).
Definition quiet_world (jobs : list (list mat)) (calls : list nat) (w : world) : Prop :=
  forall n, match nth_error jobs n with Some l => exists t, nth_error (threads w) n = Some t /\ quiet n calls l t | None => nth_error (threads w) n = None end.
Lemma set_nth_twice n a b l : set_nth n a (set_nth n b l) = set_nth n a l.
Proof. revert n. induction l as [|x l IH]; intros [|n]; cbn [set_nth]; try reflexivity. f_equal. apply IH. Qed.
Lemma nth_set_same n a t l : nth_error l n = Some t -> nth_error (set_nth n a l) n = Some a.
Proof. intros E. rewrite nth_set_nth, PeanoNat.Nat.eqb_refl, E. reflexivity. Qed.
Lemma set_nth_id n t l : nth_error l n = Some t -> set_nth n t l = l.
Proof. revert n. induction l as [|x l IH]; intros [|n] E; cbn [set_nth nth_error] in *; try discriminate; [injection E as ->; reflexivity|]. f_equal. apply IH, E. Qed.
Lemma call_done n w l rs m : nth_error (threads w) n = Some (TH (m :: l) Idle rs) ->
  step svd n (step svd n (step svd n w)) = W (svd m) (set_nth n (TH l Idle (rs ++ [(m, rectified svd m)])) (threads w)).
Proof.
  intros E. unfold step at 3. rewrite E. cbn [tstep todo at_ results]. unfold step at 2. cbn [threads shared]. rewrite (nth_set_same n _ _ _ E). cbn [tstep todo at_ results].
  rewrite set_nth_twice. unfold step. cbn [threads shared]. rewrite (nth_set_same n _ _ _ E). cbn [tstep todo at_ results]. rewrite set_nth_twice. reflexivity.
Qed.
Lemma call_none n w rs : nth_error (threads w) n = Some (TH [] Idle rs) -> step svd n w = w.
Proof. intros E. unfold step. rewrite E. cbn [tstep todo]. rewrite (set_nth_id n _ _ E). destruct w. reflexivity. Qed.
Lemma step_none n w : nth_error (threads w) n = None -> step svd n w = w.
Proof. intros E. unfold step. rewrite E. reflexivity. Qed.
Lemma firstn_more {A} k (l : list A) x r : skipn k l = x :: r -> firstn (S k) l = firstn k l ++ [x] /\ skipn (S k) l = r.
Proof.
  revert l. induction k as [|k IH]; intros l E; destruct l as [|y l]; cbn [skipn] in E; try discriminate.
  - injection E as -> ->. split; reflexivity.
  - destruct (IH l E) as (I1 & I2). split; [|exact I2]. rewrite firstn_cons, I1. reflexivity.
Qed.
Lemma firstn_end {A} k (l : list A) : skipn k l = [] -> firstn (S k) l = firstn k l /\ skipn (S k) l = [].
Proof.
  revert l. induction k as [|k IH]; intros l E; destruct l as [|y l]; cbn [skipn] in E; try discriminate; try (split; reflexivity).
  destruct (IH l E) as (I1 & I2). split; [|exact I2]. rewrite firstn_cons, I1. reflexivity.
Qed.
Lemma count_snoc (l : list nat) a n : count_occ PeanoNat.Nat.eq_dec (l ++ [a]) n = if PeanoNat.Nat.eq_dec a n then S (count_occ PeanoNat.Nat.eq_dec l n) else count_occ PeanoNat.Nat.eq_dec l n.
Proof. rewrite count_occ_app. cbn [count_occ]. destruct (PeanoNat.Nat.eq_dec a n); rewrite PeanoNat.Nat.add_comm; reflexivity. Qed.
Lemma quiet_call jobs calls a w : quiet_world jobs calls w -> quiet_world jobs (calls ++ [a]) (step svd a (step svd a (step svd a w))).
Proof.
  intros H. pose proof (H a) as HA. destruct (nth_error jobs a) as [l|] eqn:EJ.
  - destruct HA as (t & E & Q). unfold quiet in Q. subst t. set (k := count_occ PeanoNat.Nat.eq_dec calls a) in *.
    destruct (skipn k l) as [|m r] eqn:EK.
    + rewrite (call_none a w _ E), (call_none a w _ E), (call_none a w _ E). intros n. specialize (H n). destruct (nth_error jobs n) as [l'|] eqn:EN; [|exact H].
      destruct H as (t & T & Q). exists t. split; [exact T|]. unfold quiet in *. rewrite count_snoc. destruct (PeanoNat.Nat.eq_dec a n) as [->|N]; [|exact Q].
      rewrite EJ in EN. injection EN as <-. fold k in Q |- *. destruct (firstn_end k l EK) as (A & B). rewrite A, B. rewrite EK in Q. exact Q.
    + rewrite (call_done a w _ _ _ E). intros n. specialize (H n). cbn [threads]. destruct (nth_error jobs n) as [l'|] eqn:EN.
      * unfold quiet in *. rewrite count_snoc, nth_set_nth. destruct (PeanoNat.Nat.eq_dec a n) as [->|N].
        -- rewrite PeanoNat.Nat.eqb_refl, E. eexists. split; [reflexivity|]. rewrite EJ in EN. injection EN as <-. fold k.
           destruct (firstn_more k l m r EK) as (A & B). rewrite A, B. unfold right. rewrite map_app. reflexivity.
        -- rewrite (proj2 (PeanoNat.Nat.eqb_neq a n) N). exact H.
      * rewrite nth_set_nth, H. destruct (Nat.eqb a n); reflexivity.
  - rewrite !(step_none a w HA). intros n. specialize (H n). destruct (nth_error jobs n) as [l'|] eqn:EN; [|exact H].
    destruct H as (t & T & Q). exists t. split; [exact T|]. unfold quiet in *. rewrite count_snoc. destruct (PeanoNat.Nat.eq_dec a n) as [->|N]; [congruence|exact Q].
Qed.
Lemma quiet_run jobs calls s : quiet_world jobs calls (run svd (one_at_a_time calls) (W s (fresh jobs))).
Proof.
  induction calls as [|a calls IH] using rev_ind.
  - intros n. cbn [one_at_a_time flat_map run fold_left threads]. unfold fresh. rewrite nth_error_map. destruct (nth_error jobs n) as [l|]; [|reflexivity].
    eexists. split; [reflexivity|]. unfold quiet. cbn [count_occ firstn skipn right map]. reflexivity.
  - unfold one_at_a_time in *. rewrite flat_map_app. unfold run in *. rewrite fold_left_app. apply quiet_call. exact IH.
Qed.
Lemma one_at_a_time_right jobs calls s n l : nth_error jobs n = Some l -> exists t, nth_error (threads (run svd (one_at_a_time calls) (W s (fresh jobs)))) n = Some t /\
  results t = map (fun m => (m, rectified svd m)) (firstn (count_occ PeanoNat.Nat.eq_dec calls n) l).
Proof.
  intros E. pose proof (quiet_run jobs calls s n) as H. rewrite E in H. destruct H as (t & T & ->). eexists. split; [exact T|]. reflexivity.
Qed.

(** One thread *)
Definition alone (w : world) : Prop := exists t, threads w = [t] /\ (forall p, In p (results t) -> snd p = rectified svd (fst p)) /\
  match todo t, at_ t with m :: _, Computed => shared w = svd m | m :: _, HaveU u => shared w = svd m /\ u = sU (svd m) | _, _ => True end.
Lemma alone_step n w : alone w -> alone (step svd n w).
Proof.
  intros (t & E & R & A). unfold step. rewrite E. destruct n as [|n]; [|exists t; replace (nth_error [t] (S n)) with (@None thread) by (destruct n; reflexivity); split; [exact E|split; assumption]].
  cbn [nth_error]. unfold tstep. destruct (todo t) as [|m r] eqn:ET.
  - exists t. cbn [threads set_nth shared]. rewrite ET. split; [reflexivity|]. split; [exact R|exact I].
  - destruct (at_ t) as [| |u] eqn:EA; cbn [set_nth].
    + eexists. split; [reflexivity|]. cbn [results todo at_ shared]. split; [exact R|reflexivity].
    + eexists. split; [reflexivity|]. cbn [results todo at_ shared]. split; [exact R|]. rewrite A. split; reflexivity.
    + eexists. split; [reflexivity|]. cbn [results todo at_ shared]. split; [|destruct r; exact I].
      intros p P. apply in_app_iff in P. destruct P as [P|[<-|[]]]; [exact (R p P)|]. destruct A as (A & ->). rewrite A. reflexivity.
Qed.
Lemma alone_run ns : forall w, alone w -> alone (run svd ns w).
Proof. induction ns as [|n ns IH]; intros w H; [exact H|]. apply (IH (step svd n w)), alone_step, H. Qed.
Lemma one_thread s l ns n t p : nth_error (threads (run svd ns (W s (fresh [l])))) n = Some t -> In p (results t) -> snd p = rectified svd (fst p).
Proof.
  intros E P. destruct (alone_run ns (W s (fresh [l]))) as (t' & T & R & _).
  - exists (TH l Idle []). split; [reflexivity|]. split; [intros q []|]. cbn [todo at_]. destruct l; exact I.
  - rewrite T in E. destruct n as [|n]; [injection E as <-; exact (R p P)|]. destruct n; discriminate.
Qed.
End Rectify.
