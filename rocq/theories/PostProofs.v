From Coq Require Import ZArith Reals List Bool Lia Lra.
From Flocq Require Import Core IEEE754.BinarySingleNaN.
From Verif Require Import Bytes SerializeModel SerializeSpec UtcTimeModel UtcTimeSpec UtcTimeProofs Float64 QuantizedModel QuantizedProofs UtcDoubleModel UtcDoubleProofs LogModel LogSpec LogProofs MaintProofs EstModel.
From Verif Require Import GatModel GatProofs GatOriginProofs PostModel PostSpec.
From Coq Require Import Permutation.
Import ListNotations.

(** ** Ephemerides *)
Lemma load_ok {E} (toe : E -> utc) l : Forall (fun x => sane (fst x) /\ sane (toe (snd x))) l ->
  load toe l = Some (map snd (filter (fun x => Z.abs (instant (fst x) - instant (toe (snd x))) <=? 7200 * 1000000000)%Z l)).
Proof.
  induction 1 as [|[t e] l [St Se] _ IH]; [reflexivity|]. cbn [load fst snd filter] in *. rewrite (verify_ok t (toe e) St Se). cbn [bind].
  rewrite IH. cbn [bind]. destruct (_ <=? _)%Z; reflexivity.
Qed.

(** ** The gap *)
Section gap.
Local Open Scope R_scope.
Lemma fin_001 : finite c_0_01 = true. Proof. vm_compute. reflexivity. Qed.
Lemma g_above : val c_0_01 < val (toSec (mkUtc 0 10000001)). Proof. concrete. Qed.
Lemma g_second : val c_0_01 < val (toSec (mkUtc 1 0)). Proof. concrete. Qed.
Lemma g_at : val (toSec (mkUtc 0 10000000)) <= val c_0_01. Proof. concrete. Qed.
Lemma g_below : val (toSec (mkUtc (-1) 999999999)) <= val c_0_01. Proof. concrete. Qed.
Lemma gap_sec d : in64 (sec d) -> normal d -> flt c_0_01 (toSec d) = (ms10 <? instant d)%Z.
Proof.
  intros I Nd. destruct (toSec_ok d I Nd) as (F & _). rewrite flt_ok; [|exact fin_001|exact F]. unfold instant, ms10.
  destruct (Z.ltb_spec 10000000 (sec d * 1000000000 + nsec d)) as [L|L].
  - apply Rlt_bool_true. destruct (Z_le_gt_dec 1 (sec d)) as [G|G].
    + eapply Rlt_le_trans; [exact g_second|]. apply toSec_mono; small.
    + eapply Rlt_le_trans; [exact g_above|]. apply toSec_mono; small.
  - apply Rlt_bool_false. destruct (Z_le_gt_dec 0 (sec d)) as [G|G].
    + eapply Rle_trans; [|exact g_at]. apply toSec_mono; small.
    + eapply Rle_trans; [|exact g_below]. apply toSec_mono; small.
Qed.
End gap.
Lemma gap_ok t next : sane t -> sane next -> gap t next = Some (ms10 <? instant next - instant t)%Z.
Proof.
  intros [Nt St] [Nn Sn]. unfold gap. destruct (sub_ok next t Nn Nt) as (d & E & Nd & Id); [unfold in64; lia|unfold in64; lia|].
  rewrite E. cbn [bind]. rewrite gap_sec; [rewrite Id; reflexivity|unfold in64, normal, instant in *; lia|exact Nd].
Qed.
Lemma stamp_sane t : since_1970 t -> sane t. Proof. intros [N S]. split; [exact N|lia]. Qed.
Lemma gap_end t : since_1970 t -> gap t MAX_TIME = Some true.
Proof.
  intros [Nt St]. unfold gap, MAX_TIME.
  destruct (sub_ok (mkUtc (2 ^ 63 - 1) 0) t) as (d & E & Nd & Id); [unfold normal; cbn; lia|exact Nt|unfold in64; cbn [sec]; lia|unfold in64, normal in *; cbn [sec nsec]; lia|].
  rewrite E. cbn [bind]. f_equal. unfold instant in Id. cbn [sec nsec] in Id. rewrite gap_sec; [|unfold in64, normal in *; lia|exact Nd].
  unfold instant, ms10, normal in *. apply Z.ltb_lt. lia.
Qed.

(** ** Batches *)
Section batches.
Context {O : Type} (time : O -> utc).
Notation alike := (alike time).
Notation batch_of := (batch_of time).
Lemma eq_time a b : eq a b = same_time a b. Proof. reflexivity. Qed.
Lemma eq_same t : same_time t t = true. Proof. unfold same_time. rewrite !Z.eqb_refl. reflexivity. Qed.
Lemma alike_snoc b o : b <> [] -> alike (b ++ [o]) = match alike b with [] => [o] | f :: _ => if same_time (time f) (time o) then alike b ++ [o] else alike b end.
Proof.
  destruct b as [|f b]; [congruence|]. intros _. cbn [app PostSpec.alike]. change (f :: b ++ [o]) with ((f :: b) ++ [o]). rewrite filter_app. cbn [filter]. rewrite eq_same.
  destruct (same_time (time f) (time o)); [reflexivity|]. rewrite app_nil_r. reflexivity.
Qed.
Lemma alike_next b (o : O) : alike (b ++ [o]) = match alike b with [] => [o] | f :: _ => if same_time (time f) (time o) then alike b ++ [o] else alike b end.
Proof. destruct b as [|f b]; [cbn [app PostSpec.alike filter]; rewrite eq_same; reflexivity|]. apply alike_snoc. discriminate. Qed.

Lemma block b x bs l rest : close (b ++ [x]) -> Forall (fun y => since_1970 (fst y)) (b ++ [x]) ->
  gap (fst x) (match l with [] => MAX_TIME | (t2, _) :: _ => t2 end) = Some true -> bundles time l [] = Some rest ->
  bundles time (b ++ x :: l) (alike bs) = Some ((fst x, alike (bs ++ map snd (b ++ [x]))) :: rest).
Proof.
  revert bs. induction b as [|[t o] b IH]; intros bs C F G R.
  - destruct x as [t o]. cbn [app bundles fst map snd] in *. rewrite <- alike_next. rewrite G. cbn [bind]. rewrite R. reflexivity.
  - cbn [app bundles]. rewrite <- alike_next. cbn [app] in F. inversion F as [|? ? F1 F2]; subst. cbn [fst] in F1.
    assert (NX : exists y l2, b ++ x :: l = y :: l2 /\ (instant (fst y) - instant t <= ms10)%Z /\ since_1970 (fst y)).
    { destruct b as [|y b].
      - exists x, l. split; [reflexivity|]. inversion C; subst. split; [assumption|]. inversion F2; assumption.
      - exists y, (b ++ x :: l). split; [reflexivity|]. inversion C; subst. split; [assumption|]. inversion F2; assumption. }
    destruct NX as ([ty oy] & l2 & EQ & D & SY). rewrite EQ. cbn [fst] in D, SY. rewrite (gap_ok t ty (stamp_sane _ F1) (stamp_sane _ SY)). cbn [bind].
    destruct (Z.ltb_spec ms10 (instant ty - instant t)); [lia|]. rewrite <- EQ.
    rewrite (IH (bs ++ [o])).
    + cbn [map snd app]. rewrite <- app_assoc. reflexivity.
    + cbn [app] in C. inversion C as [y0 E0|]; [destruct b; discriminate|]. destruct b; cbn [app] in *; congruence.
    + exact F2.
    + exact G.
    + exact R.
Qed.
Lemma split_last {A} (l : list A) : l <> [] -> exists b x, l = b ++ [x].
Proof. intros N. destruct (exists_last N) as (b & x & E). exists b, x. exact E. Qed.
Lemma close_ne (b : list (utc * O)) : close b -> b <> []. Proof. intros C. inversion C; discriminate. Qed.
Lemma last_snoc {A} (l : list A) x d : last (l ++ [x]) d = x.
Proof. induction l as [|a l IH]; [reflexivity|]. cbn [app last]. destruct (l ++ [x]) eqn:E; [destruct l; discriminate|]. exact IH. Qed.
Lemma batches bs l d : cut_at_gaps bs l -> Forall (fun y => since_1970 (fst y)) l -> bundles time l [] = Some (map (fun b => batch_of b d) bs).
Proof.
  induction 1 as [|b C|b x t o bs l C G CA IH]; intros F.
  - reflexivity.
  - destruct (split_last b (close_ne b C)) as (b' & x & ->). change (@nil O) with (alike []). 
    rewrite (block b' x [] [] [] C F); [|apply gap_end; rewrite Forall_forall in F; apply F; apply in_or_app; right; left; reflexivity|reflexivity].
    cbn [map app]. unfold PostSpec.batch_of. rewrite last_snoc. reflexivity.
  - apply Forall_app in F. destruct F as [F1 F2]. rewrite <- app_assoc. cbn [app]. change (@nil O) with (alike []) at 1.
    rewrite (block b x [] ((t, o) :: l) (map (fun b => batch_of b d) bs) C F1).
    + cbn [map app]. f_equal. f_equal. unfold PostSpec.batch_of. rewrite last_snoc. reflexivity.
    + assert (SX : since_1970 (fst x)) by (rewrite Forall_forall in F1; apply F1; apply in_or_app; right; left; reflexivity).
      inversion F2 as [|? ? ST F3]; subst. cbn [fst] in ST. rewrite (gap_ok _ _ (stamp_sane _ SX) (stamp_sane _ ST)).
      destruct (Z.ltb_spec ms10 (instant t - instant (fst x))); [reflexivity|lia].
    + exact (IH F2).
Qed.
(** every list of records can be cut so, and in one way only as the result is the same *)
Lemma cut_exists : forall l : list (utc * O), exists bs, cut_at_gaps bs l.
Proof.
  induction l as [|x l IH]; [exists []; constructor|]. destruct IH as [bs IH]. destruct l as [|y l].
  - exists [[x]]. apply ca_last. constructor.
  - destruct (Z_le_gt_dec (instant (fst y) - instant (fst x)) ms10) as [D|D].
    + remember (y :: l) as yl eqn:E. destruct IH as [|b C|b z t o bs' l' C G CA]; [discriminate| |].
      * rewrite E in *. exists [x :: y :: l]. apply ca_last. constructor; assumption.
      * assert (Y : exists b', b ++ [z] = y :: b').
        { destruct b as [|w b]; cbn [app] in E |- *; [exists []; congruence|exists (b ++ [z]); congruence]. }
        destruct Y as [b' Y]. exists ((x :: b ++ [z]) :: bs'). change (x :: b ++ [z]) with ((x :: b) ++ [z]).
        change (x :: (b ++ [z]) ++ (t, o) :: l') with (((x :: b) ++ [z]) ++ (t, o) :: l').
        apply (ca_more (x :: b) z t o bs' l'); [|exact G|exact CA]. cbn [app]. rewrite Y in C |- *. constructor; assumption.
    + exists ([x] :: bs). destruct y as [t o]. apply (ca_more [] x t o bs l); [constructor|cbn [fst] in *; lia|exact IH].
Qed.
Lemma cut_concat bs (l : list (utc * O)) : cut_at_gaps bs l -> concat bs = l.
Proof. induction 1 as [|b C|b x t o bs l C G CA IH]; [reflexivity|cbn [concat]; apply app_nil_r|]. cbn [concat]. rewrite IH. reflexivity. Qed.
End batches.

(** ** The end of reading *)
Section hours.
Local Open Scope R_scope.
Lemma fin_45 : finite (of_Z 45) = true. Proof. vm_compute. reflexivity. Qed.
Lemma v_46 : val (of_Z 45) < val (toSec (mkUtc 46 0)). Proof. concrete. Qed.
Lemma stop_46 t : normal t -> (46 <= sec t < 2 ^ 60)%Z -> keep_going (mkUtc 0 0) t = false.
Proof.
  intros N S. unfold keep_going. destruct (sub_ok t (mkUtc 0 0) N) as (d & E & Nd & Id); [unfold normal; cbn; lia|unfold in64; cbn [sec]; lia|unfold in64, normal in *; cbn [sec nsec]; lia|].
  rewrite E. assert (D : d = t).
  { unfold instant, normal in *. cbn [sec nsec] in Id. destruct d as [ds dn], t as [ts tn]. cbn [sec nsec] in *. f_equal; lia. }
  rewrite D. assert (I : in64 (sec t)) by (unfold in64; lia). destruct (toSec_ok t I N) as (F & _).
  rewrite (flt_ok (of_Z 45) (toSec t) fin_45 F). rewrite Rlt_bool_true; [reflexivity|].
  eapply Rlt_le_trans; [exact v_46|]. apply toSec_mono; small.
Qed.
Lemma k_above : val (of_Z 45) < val (toSec (mkUtc 45 1)). Proof. concrete. Qed.
Lemma k_at : val (toSec (mkUtc 45 0)) <= val (of_Z 45). Proof. concrete. Qed.
Lemma k_below : val (toSec (mkUtc 44 999999999)) <= val (of_Z 45). Proof. concrete. Qed.
Lemma keep_ok t0 t : sane t0 -> sane t -> keep_going t0 t = (instant t - instant t0 <=? 45 * 1000000000)%Z.
Proof.
  intros [Nt St] [Nn Sn]. unfold keep_going. destruct (sub_ok t t0 Nn Nt) as (d & E & Nd & Id); [unfold in64; lia|unfold in64; lia|].
  rewrite E. rewrite <- Id. clear E. assert (I : in64 (sec d)) by (unfold in64, normal, instant in *; lia). destruct (toSec_ok d I Nd) as (F & _).
  rewrite (flt_ok (of_Z 45) (toSec d) fin_45 F). unfold instant. clear Id.
  destruct (Z.leb_spec (sec d * 1000000000 + nsec d) (45 * 1000000000)) as [L|L].
  - rewrite Rlt_bool_false; [reflexivity|]. destruct (Z_le_gt_dec 45 (sec d)) as [G|G].
    + eapply Rle_trans; [|exact k_at]. apply toSec_mono; small.
    + eapply Rle_trans; [|exact k_below]. apply toSec_mono; small.
  - rewrite Rlt_bool_true; [reflexivity|]. destruct (Z_le_gt_dec 46 (sec d)) as [G|G].
    + eapply Rlt_le_trans; [exact v_46|]. apply toSec_mono; small.
    + eapply Rlt_le_trans; [exact k_above|]. apply toSec_mono; small.
Qed.
Lemma small_period : period_ok c_0_01.
Proof.
  split; [exact fin_001|]. assert (Z0 : val (of_Z 0) = 0) by (vm_compute; reflexivity). split.
  - rewrite <- Z0. apply cmp_le; vm_compute; reflexivity.
  - apply Rlt_le_trans with (val (toSec (mkUtc 1 0))); [exact g_second|]. apply Rle_trans with (bpow radix2 1).
    + apply Rle_trans with (val (of_Z 2)); [apply cmp_le; vm_compute; reflexivity|].
      eapply Rle_trans; [apply Rle_abs|]. apply of_Z_abs; lia.
    + change (bpow radix2 1) with 2. apply IZR_le. lia.
Qed.
End hours.

Section reading.
Variable translation dual : list Z -> list Z -> list Z.
Variable junk : list Z.
Hypothesis translation_ok : forall r d, length (translation r d) = 3%nat /\ Forall (in_range FP64) (translation r d).
Hypothesis dual_ok : forall q t, length (dual q t) = 4%nat /\ Forall (in_range FP64) (dual q t).
Lemma nothing_read {X} (blank x : X) fuel cbs ops files order cut log_start :
  wrun translation ops [] = Some files -> Permutation files order -> records_ok cbs ops -> far_from_overflow log_start ->
  (forall k t data, In (Log k t data) ops -> (46 <= sec t < 2 ^ 60)%Z /\ (instant log_start <= instant t)%Z) ->
  let out := LogModel.read dual junk (S fuel) cbs (opened dual junk cut order) [maintenance (start_state blank x) log_start] in
  out = Finished [] \/ exists t, out = Stopped [Maint 0 t].
Proof.
  intros W P Ok Fs H out. subst out. unfold LogModel.read. rewrite (filter_opened dual junk).
  destruct (perm_wrun translation dual junk translation_ok dual_ok ops files order W P) as (El & ND & Eb).
  set (ls := filter _ order). destruct (contents_exist translation dual junk translation_ok dual_ok cbs ops cut ls Ok) as (cs & F1 & F2).
  { intros s I. unfold ls in I. apply filter_In in I as (I & _). apply Eb. exact I. }
  { intros s I. unfold ls in I. apply filter_In in I as (_ & I). exact I. }
  cbn [loop]. destruct (scan 0 (opened dual junk cut ls) MAX_TIME None) as (m, b0) eqn:Sc.
  apply scan_ok in Sc as [(-> & -> & Fm)|(j & s & -> & Nt & Ns & Tm & Fm)]; [left; reflexivity|].
  destruct (eq m MAX_TIME) eqn:EM; [left; reflexivity|]. right. exists m.
  assert (M : normal m /\ (46 <= sec m < 2 ^ 60)%Z /\ (instant log_start <= instant m)%Z).
  { destruct (Forall2_nth _ _ _ _ _ F1 Nt) as (c & Ec & C). destruct (Forall2_nth_r _ _ _ F2 j c Ec) as (w & Ew & CR).
    assert (Sub : cbs (w_key w) <> None).
    { apply nth_error_In in Ew. unfold ls in Ew. apply filter_In in Ew as (_ & Ew). unfold subscribed in Ew. destruct (cbs (w_key w)); [congruence|discriminate]. }
    inversion C as [s0 L E1 E2|s0 ts vs s' r C1 C2 C3 C4 E1 E2]; subst s0.
    - exfalso. apply lt_false in L. apply L. rewrite Ns. exact Tm.
    - rewrite <- E2 in CR. pose proof (cut_stamps translation dual _ _ _ _ CR (or_introl eq_refl)) as I. cbn [fst] in I. rewrite Ns in I.
      split; [apply (logged_stamp cbs ops _ m Ok Sub I)|]. apply in_map_iff in I as ((t & data) & E & I). cbn [fst] in E. subst t. apply logged_in in I. exact (H _ _ _ I). }
  destruct M as (Nm & Sm & Lm). unfold maintenance. cbn [maintain next_call period act].
  assert (FM : far_from_overflow m) by (split; [exact Nm|lia]). destruct Fs as (Nl & Bl).
  rewrite (tq_due m log_start FM Nl); [|lia]. cbn [bind]. replace (instant log_start - instant m <=? 50000)%Z with true by (symmetry; apply Z.leb_le; lia).
  change (t_of (start_state blank x)) with (mkUtc 0 0). rewrite (stop_46 m Nm Sm).
  destruct (step_add (mkM c_0_01 (fun _ t => keep_going (t_of (start_state blank x)) t) log_start)) as (r & E & _).
  { split; [exact Nl|]. split; [cbn [next_call]; lia|exact small_period]. }
  cbn [next_call period] in E. rewrite E. reflexivity.
Qed.
End reading.
Lemma concat_map_snd {A B} (bs : list (list (A * B))) : concat (map (map snd) bs) = map snd (concat bs).
Proof. symmetry. apply concat_map. Qed.
