(** Proofs about the loop of the simulator, the progress bar and small utilities. *)
From Coq Require Import ZArith Reals List Bool Lia Lra.
From Flocq Require Import Core.Zaux Core.Raux Core.Generic_fmt IEEE754.BinarySingleNaN.
From Verif Require Import UtcTimeModel UtcTimeSpec UtcTimeProofs Float64 UtcDoubleModel UtcDoubleProofs UtilModel UtilSpec.
Import ListNotations.
Local Open Scope Z_scope.

(** ** The loop *)
Definition step_ns (dt : b64) : Z := Ztrunc (rnd (val dt * e9)).
Lemma i32_in z : - 2 ^ 31 <= z < 2 ^ 31 -> i32 z = Some z.
Proof. intros H. unfold i32, fits. replace (- 2 ^ (32 - 1) <=? z) with true by (symmetry; apply Z.leb_le; lia). replace (z <? 2 ^ (32 - 1)) with true by (symmetry; apply Z.ltb_lt; lia). reflexivity. Qed.
Lemma i32_out z : 2 ^ 31 <= z -> i32 z = None.
Proof. intros H. unfold i32, fits. replace (z <? 2 ^ (32 - 1)) with false by (symmetry; apply Z.ltb_ge; lia). rewrite andb_false_r. reflexivity. Qed.
Lemma sec_range t a : normal t -> - a * 1000000000 <= instant t < a * 1000000000 -> - a <= sec t < a.
Proof. unfold normal, instant. intros. lia. Qed.
Lemma run dt t_end stop : finite dt = true -> (Rabs (val dt) < IZR (2 ^ 32))%R -> normal t_end -> sec t_end < 2 ^ 61 -> forall m i count t truth fuel,
  normal t -> - 2 ^ 61 <= sec t < 2 ^ 61 -> 0 <= step_ns dt -> (forall j, (i <= j < i + m)%nat -> stop j = false) ->
  (stop (i + m)%nat = true \/ instant t_end <= instant t + Z.of_nat m * step_ns dt) ->
  (forall k, (k < m)%nat -> instant t + Z.of_nat k * step_ns dt < instant t_end) ->
  0 <= count -> count + Z.of_nat m < 2 ^ 31 -> (m < fuel)%nat ->
  exists l t', simulate fuel stop dt t_end i count t truth = Ended (truth ++ l) t' /\ length l = m /\ every (step_ns dt) (instant t) l /\
    normal t' /\ instant t' = instant t + Z.of_nat m * step_ns dt.
Proof.
  intros Fd Bd Ne Se. induction m as [|m IH]; intros i count t truth fuel Nt St Q NS E L C0 C1 FU.
  - destruct fuel as [|fuel]; [lia|]. exists [], t. cbn [simulate]. rewrite Nat.add_0_r in E.
    assert (X : negb (stop i) && UtcTimeModel.lt t t_end = false).
    { destruct E as [E|E]; [rewrite E; reflexivity|]. rewrite (lt_ok t t_end Nt Ne). replace (instant t <? instant t_end) with false by (symmetry; apply Z.ltb_ge; lia). apply andb_false_r. }
    rewrite X, app_nil_r. split; [reflexivity|]. split; [reflexivity|]. split; [intros k x K; destruct k; discriminate|]. split; [exact Nt|lia].
  - destruct fuel as [|fuel]; [lia|]. cbn [simulate]. rewrite (NS i) by lia. rewrite (lt_ok t t_end Nt Ne).
    assert (L0 : instant t < instant t_end) by (specialize (L O ltac:(lia)); lia).
    replace (instant t <? instant t_end) with true by (symmetry; apply Z.ltb_lt; lia). cbn [negb andb].
    destruct (add_double_exact t dt Nt Fd Bd) as (r & A & Nr & I); [lia|]. fold (step_ns dt) in I. rewrite A, i32_in by lia.
    destruct m as [|m'].
    + destruct fuel as [|fuel]; [lia|]. exists [r], r. cbn [simulate].
      assert (X : negb (stop (S i)) && UtcTimeModel.lt r t_end = false).
      { replace (i + 1)%nat with (S i) in E by lia. destruct E as [E|E]; [rewrite E; reflexivity|]. rewrite (lt_ok r t_end Nr Ne). replace (instant r <? instant t_end) with false by (symmetry; apply Z.ltb_ge; lia). apply andb_false_r. }
      rewrite X. split; [reflexivity|]. split; [reflexivity|]. split; [intros [|k] x K; [|destruct k; discriminate]|split; [exact Nr|lia]].
      cbn in K. assert (x = r) by congruence. subst x. split; [exact Nr|lia].
    + assert (Lr : instant r < instant t_end) by (specialize (L 1%nat ltac:(lia)); lia).
      assert (Sr : - 2 ^ 61 <= sec r < 2 ^ 61).
      { unfold normal, instant in *. lia. }
      destruct (IH (S i) (count + 1) r (truth ++ [r]) fuel Nr Sr Q) as (l & t' & R & Ll & Ev & Nt' & It').
      * intros j J. apply NS. lia.
      * replace (S i + S m')%nat with (i + S (S m'))%nat by lia. destruct E as [E|E]; [left; exact E|right; lia].
      * intros k K. specialize (L (S k) ltac:(lia)). lia.
      * lia.
      * lia.
      * lia.
      * exists (r :: l), t'. rewrite R. rewrite <- app_assoc. split; [reflexivity|]. split; [cbn; lia|]. split.
        -- intros [|k] x K; cbn in K; [assert (x = r) by congruence; subst x; split; [exact Nr|lia]|]. destruct (Ev k x K) as (Nx & Ix). split; [exact Nx|lia].
        -- split; [exact Nt'|lia].
Qed.
(** the least number of steps of [q] that reach [d] *)
Definition steps_for (d q : Z) : nat := Z.to_nat ((d + q - 1) / q).
Lemma steps_for_ok d q : 1 <= q -> 0 <= d -> d <= Z.of_nat (steps_for d q) * q < d + q.
Proof.
  intros Q D. unfold steps_for. pose proof (Z.div_mod (d + q - 1) q ltac:(lia)). pose proof (Z.mod_pos_bound (d + q - 1) q ltac:(lia)).
  assert (0 <= (d + q - 1) / q) by (apply Z.div_pos; lia). rewrite Z2Nat.id by assumption. nia.
Qed.
Lemma step_pos dt : (1 / 1000000000 <= val dt)%R -> 1 <= step_ns dt.
Proof.
  intros H. unfold step_ns. assert (R1 : (1 <= rnd (val dt * e9))%R).
  { replace 1%R with (rnd 1) by (apply round_generic; [apply valid_rnd_round_mode|]; change 1%R with (IZR 1); apply format_Z; lia). apply rnd_mono. unfold e9. lra. }
  rewrite Ztrunc_floor by lra. apply Zfloor_lub. exact R1.
Qed.
Lemma whole_run t0 tmax dt stop m : normal t0 -> - 2 ^ 60 <= sec t0 < 2 ^ 60 -> finite dt = true -> finite tmax = true ->
  (1 / 1000000000 <= val dt < IZR (2 ^ 32))%R -> (0 <= val tmax < IZR (2 ^ 32))%R ->
  let n := steps_for (step_ns tmax) (step_ns dt) in Z.of_nat n < 2 ^ 31 -> (m <= n)%nat -> (forall j, (j < m)%nat -> stop j = false) -> (m = n \/ stop m = true) ->
  exists l t', (forall fuel, (m < fuel)%nat -> simulation fuel stop t0 tmax dt = Ended l t') /\ length l = m /\ every (step_ns dt) (instant t0) l /\
    normal t' /\ instant t' = instant t0 + Z.of_nat m * step_ns dt.
Proof.
  intros Nt St Fd Fm Bd Bm n N31 MN NS E. unfold simulation.
  destruct (add_double_exact t0 tmax Nt Fm) as (te & A & Ne & I); [rewrite Rabs_pos_eq by lra; lra|lia|]. fold (step_ns tmax) in I. rewrite A.
  pose proof (step_pos dt (proj1 Bd)) as Q. 
  assert (D0 : 0 <= step_ns tmax < 2 ^ 60 * 1000000000).
  { unfold step_ns. assert (R0 : (0 <= rnd (val tmax * e9))%R).
    { replace 0%R with (rnd 0) by (apply round_0; apply valid_rnd_round_mode). apply rnd_mono. unfold e9. lra. }
    rewrite Ztrunc_floor by exact R0. split; [apply Zfloor_lub; exact R0|]. apply lt_IZR. eapply Rle_lt_trans; [apply Zfloor_lb|].
    destruct (prod_val tmax Fm) as (_ & _ & P); [rewrite Rabs_pos_eq by lra; lra|]. apply Rabs_le_inv in P. eapply Rle_lt_trans; [exact (proj2 P)|]. change (bpow radix2 62) with (IZR (2 ^ 62)). apply IZR_lt. lia. }
  pose proof (steps_for_ok (step_ns tmax) (step_ns dt) Q (proj1 D0)) as K. fold n in K.
  assert (P : forall fuel, (m < fuel)%nat -> exists l t', simulate fuel stop dt te 0 0 t0 [] = Ended ([] ++ l) t' /\ length l = m /\ every (step_ns dt) (instant t0) l /\
    normal t' /\ instant t' = instant t0 + Z.of_nat m * step_ns dt).
  { intros fuel FU. apply run; try assumption; try lia.
    - rewrite Rabs_pos_eq by lra. lra.
    - unfold normal, instant in *. lia.
    - intros j J. apply NS. lia.
    - rewrite Nat.add_0_l. destruct E as [E|E]; [right; subst m; lia|left; exact E].
    - intros k KM. assert (Z.of_nat k + 1 <= Z.of_nat n) by lia. assert ((Z.of_nat k + 1) * step_ns dt <= Z.of_nat n * step_ns dt) by (apply Z.mul_le_mono_nonneg_r; lia). lia. }
  destruct (P (S m) ltac:(lia)) as (l & t' & R & X). exists l, t'. split; [|exact X].
  intros fuel FU. destruct (P fuel FU) as (l2 & t2 & R2 & X2). rewrite R2. cbn [app]. 
  destruct X as (L1 & E1 & N1 & I1). destruct X2 as (L2 & E2 & N2 & I2).
  assert (TE : forall a b, normal a -> normal b -> instant a = instant b -> a = b).
  { intros [a b] [c d]. unfold normal, instant. cbn [sec nsec]. intros. f_equal; lia. }
  rewrite (TE t2 t' N2 N1 ltac:(lia)). f_equal.
  apply (nth_ext _ _ t' t'); [lia|]. intros k K2. assert (K1 : (k < length l)%nat) by lia.
  destruct (E1 k (nth k l t') (nth_error_nth' l t' K1)) as (A1 & B1). destruct (E2 k (nth k l2 t') (nth_error_nth' l2 t' K2)) as (A2 & B2). apply TE; [assumption|assumption|lia].
Qed.
(** a step that adds nothing *)
Lemma never dt te t : add_double t dt = Some t -> UtcTimeModel.lt t te = true -> forall fuel i count truth,
  match simulate fuel (fun _ => false) dt te i count t truth with Ended _ _ => False | _ => True end.
Proof.
  intros A L. induction fuel as [|fuel IH]; intros i count truth; cbn [simulate]; [exact I|]. rewrite L, A. cbn [negb andb].
  destruct (i32 (count + 1)); [apply IH|exact I].
Qed.

(** ** The progress bar *)
Lemma cell_range size bw total completed i : 1 <= size -> 0 < total -> 0 <= bw -> 0 <= completed -> match cell_at size bw total completed i with Theme k => 0 <= k < size | Blank => True end.
Proof.
  intros S T B C. unfold cell_at. set (w := bw * completed). pose proof (Z.mod_pos_bound w total T) as M. set (r := w mod total) in *.
  destruct (i <? w / total); [lia|]. destruct (i =? w / total); [|exact I]. split.
  - apply Z.div_pos; [|lia]. apply Z.add_nonneg_nonneg; [|lia]. apply Z.mul_nonneg_nonneg; lia.
  - apply Z.div_lt_upper_bound; [lia|]. assert (r * (size - 1) <= (total - 1) * (size - 1)) by (apply Z.mul_le_mono_nonneg_r; lia). nia.
Qed.
Lemma bar_nth size bw total completed i : 0 <= i < bw -> nth_error (bar size bw total completed) (Z.to_nat i) = Some (cell_at size bw total completed i).
Proof.
  intros H. unfold bar. rewrite nth_error_map. assert (N : nth_error (seq 0 (Z.to_nat bw)) (Z.to_nat i) = Some (Z.to_nat i)).
  { rewrite (nth_error_nth' _ O) by (rewrite seq_length; lia). rewrite seq_nth by lia. reflexivity. }
  rewrite N. cbn [option_map]. rewrite Z2Nat.id by lia. reflexivity.
Qed.
Lemma bar_length size bw total completed : 0 <= bw -> Z.of_nat (length (bar size bw total completed)) = bw.
Proof. intros H. unfold bar. rewrite map_length, seq_length. lia. Qed.
Lemma bar_shape size bw total completed i : 0 < total -> 0 <= i < bw -> 0 <= completed ->
  (total * (i + 1) <= bw * completed -> nth_error (bar size bw total completed) (Z.to_nat i) = Some (Theme (size - 1))) /\
  (bw * completed < total * i -> nth_error (bar size bw total completed) (Z.to_nat i) = Some Blank).
Proof.
  intros T I C. rewrite bar_nth by exact I. unfold cell_at. split; intros H.
  - assert (i + 1 <= bw * completed / total) by (apply Z.div_le_lower_bound; lia). replace (i <? bw * completed / total) with true by (symmetry; apply Z.ltb_lt; lia). reflexivity.
  - assert (bw * completed / total < i) by (apply Z.div_lt_upper_bound; lia). replace (i <? bw * completed / total) with false by (symmetry; apply Z.ltb_ge; lia).
    replace (i =? bw * completed / total) with false by (symmetry; apply Z.eqb_neq; lia). reflexivity.
Qed.
Lemma stamps_ok total completed elapsed : 1 <= completed -> completed <= total < 2 ^ 31 -> 0 <= elapsed < 2 ^ 31 -> (total - completed) * elapsed < 2 ^ 31 * completed ->
  exists l, stamps total completed elapsed = Some (l, elapsed) /\ 0 <= l /\ l * completed <= (total - completed) * elapsed < (l + 1) * completed.
Proof.
  intros C T E H. unfold stamps, left_ms. rewrite (i32_in (total - completed)) by lia. cbn [bind].
  destruct (Z.eqb_spec elapsed 0) as [Z0|Z0].
  - replace (completed =? 0) with false by (symmetry; apply Z.eqb_neq; lia). cbn [bind]. rewrite i32_in by lia. cbn [bind]. exists 0. subst elapsed. split; [reflexivity|]. lia.
  - replace (completed =? 0) with false by (symmetry; apply Z.eqb_neq; lia). assert (P : 0 <= (total - completed) * elapsed) by (apply Z.mul_nonneg_nonneg; lia).
    rewrite Z.quot_div_nonneg by lia. pose proof (Z.div_mod ((total - completed) * elapsed) completed ltac:(lia)) as DM. pose proof (Z.mod_pos_bound ((total - completed) * elapsed) completed ltac:(lia)) as MB.
    assert (Q0 : 0 <= (total - completed) * elapsed / completed) by (apply Z.div_pos; lia).
    assert (Q1 : (total - completed) * elapsed / completed < 2 ^ 31) by (apply Z.div_lt_upper_bound; lia).
    rewrite i32_in by lia. cbn [bind]. rewrite i32_in by lia. cbn [bind]. eexists. split; [reflexivity|]. split; [exact Q0|]. lia.
Qed.
Lemma stamps_start total elapsed : stamps total 0 elapsed = None.
Proof. unfold stamps, left_ms. destruct (i32 (total - 0)); [|reflexivity]. cbn [bind]. destruct (elapsed =? 0); reflexivity. Qed.
Lemma stamps_far total completed elapsed : 1 <= completed -> completed <= total < 2 ^ 31 -> 0 < elapsed -> 2 ^ 31 * completed <= (total - completed) * elapsed -> stamps total completed elapsed = None.
Proof.
  intros C T E H. unfold stamps, left_ms. rewrite (i32_in (total - completed)) by lia. cbn [bind].
  replace (elapsed =? 0) with false by (symmetry; apply Z.eqb_neq; lia). replace (completed =? 0) with false by (symmetry; apply Z.eqb_neq; lia).
  assert (P : 0 <= (total - completed) * elapsed) by (apply Z.mul_nonneg_nonneg; lia). rewrite Z.quot_div_nonneg by lia.
  assert (Q1 : 2 ^ 31 <= (total - completed) * elapsed / completed) by (apply Z.div_le_lower_bound; lia). rewrite i32_out by lia. reflexivity.
Qed.

(** ** Random numbers *)
Local Open Scope R_scope.
Lemma width_ok lower upper : 0 <= upper - lower < IZR (2 ^ 31) -> exists w, width lower upper = Some w /\ (0 <= w)%Z /\ IZR w <= upper - lower < IZR w + 1.
Proof.
  intros (H0 & H1). unfold width. rewrite Ztrunc_floor by exact H0. pose proof (Zfloor_lb (upper - lower)) as L. pose proof (Zfloor_ub (upper - lower)) as U.
  set (w := Zfloor (upper - lower)) in *. assert (W0 : (0 <= w)%Z) by (apply Zfloor_lub; exact H0). assert (W1 : (w < 2 ^ 31)%Z) by (apply lt_IZR; lra).
  exists w. rewrite i32_in by lia. split; [reflexivity|]. split; [exact W0|lra].
Qed.
Lemma uniform_range lower upper u : 0 <= upper - lower < IZR (2 ^ 31) -> 0 <= u < 1 -> exists v w, uniform lower upper u = Some v /\ lower <= v <= upper /\
  (0 <= w)%Z /\ IZR w <= upper - lower < IZR w + 1 /\ v = IZR w * u + lower.
Proof.
  intros H U. destruct (width_ok lower upper H) as (w & E & W0 & W). unfold uniform. rewrite E. cbn [bind]. exists (IZR w * u + lower), w. split; [reflexivity|].
  assert (0 <= IZR w) by (apply IZR_le; exact W0). assert (0 <= IZR w * u) by (apply Rmult_le_pos; lra). assert (IZR w * u <= IZR w * 1) by (apply Rmult_le_compat_l; lra).
  split; [lra|]. split; [exact W0|]. split; [exact W|reflexivity].
Qed.
Lemma uniform_reach lower w y : (0 < w < 2 ^ 31)%Z -> lower <= y < lower + IZR w -> exists u, 0 <= u < 1 /\ uniform lower (lower + IZR w) u = Some y.
Proof.
  intros W Y. assert (P : 0 < IZR w) by (apply IZR_lt; lia). exists ((y - lower) / IZR w). split.
  - split; [apply Rmult_le_reg_r with (IZR w)|apply Rmult_lt_reg_r with (IZR w)]; try exact P; unfold Rdiv; rewrite ?Rmult_assoc, ?Rinv_l by lra; lra.
  - unfold uniform, width. replace (lower + IZR w - lower) with (IZR w) by ring. rewrite Ztrunc_IZR, i32_in by lia. cbn [bind]. f_equal. field. lra.
Qed.
Lemma uniform_short lower upper u : 0 <= upper - lower < 1 -> uniform lower upper u = Some lower.
Proof.
  intros H. unfold uniform, width. rewrite Ztrunc_floor by lra. rewrite (Zfloor_imp 0) by (cbn; lra). rewrite i32_in by lia. cbn [bind]. f_equal. ring.
Qed.
