From Coq Require Import ZArith NArith List Lia Arith Bool.
From Verif Require Import Bytes BitToolsModel BitToolsSpec BitToolsProofs UtcTimeModel UtcTimeSpec UtcTimeProofs.
From Verif Require Import CrcModel CrcSpec CrcProofs EphModel EphSpec EphProofs GloModel GloSpec.
Import ListNotations.
Local Open Scope N_scope.

Lemma bind_some A B (a : A) (f : A -> option B) : bind (Some a) f = f a.
Proof. reflexivity. Qed.

(** ** Bits *)
Lemma rev_range_map lo hi : (lo <= hi <= 85)%nat -> map (fun b => 85 - b)%nat (rev (range lo hi)) = seq (85 - hi) (S hi - lo).
Proof.
  intros H. unfold range. remember (S hi - lo)%nat as n eqn:En. revert lo hi H En.
  induction n as [|n IH]; intros lo hi H En; [reflexivity|].
  destruct n as [|n].
  - assert (hi = lo) by lia. subst. reflexivity.
  - cbn [seq]. change (lo :: S lo :: seq (S (S lo)) n) with (lo :: seq (S lo) (S n)). cbn [rev]. rewrite map_app.
    rewrite (IH (S lo) hi) by lia. cbn [map]. rewrite seq_S. cbn [seq]. rewrite <- seq_S. 
    change (S (85 - hi) :: seq (S (S (85 - hi))) n) with (seq (S (85 - hi)) (S n)).
    change (85 - hi :: seq (S (85 - hi)) (S n))%nat with (seq (85 - hi) (S (S n))). rewrite (seq_S (S n)). f_equal. f_equal. lia.
Qed.
Lemma bits_seq m hi lo : (lo <= hi <= 85)%nat -> bits m hi lo = map (sent_bit m) (seq (85 - hi) (S hi - lo)).
Proof. intros H. unfold bits, sbit. rewrite <- (rev_range_map lo hi H), map_map. reflexivity. Qed.

Lemma buf_facts m : buffer m -> exists buf, swapped 4 0 m = Some buf /\ length buf = 16%nat /\ bytes_ok buf /\
  (forall k, (k < 128)%nat -> bit_at buf k = sent_bit m k) /\
  nth_error buf 12 = Some (nth 15 m 0) /\ nth_error buf 13 = Some (nth 14 m 0).
Proof.
  intros (L & H). destruct (swapped_ok m H 4 0) as (buf & E & Lb & O & B); [lia|].
  exists buf. split; [assumption|]. split; [exact Lb|]. split; [assumption|]. split; [intros k K; rewrite B by lia; reflexivity|].
  cbn [swapped] in E. rewrite !word_bytes_ok in E by lia. cbn [bind app] in E.
  assert (X : forall (x y : list N), Some x = Some y -> x = y) by congruence. apply X in E. subst buf. split; reflexivity.
Qed.
Lemma mark_eq m : buffer m -> N.lor ((nth 15 m 0 * 256) mod 65536) (nth 14 m 0) = superframe m.
Proof.
  intros (L & H). assert (Q : forall i, (i < length m)%nat -> nth i m 0 < 256).
  { intros i I. rewrite Forall_forall in H. apply H, nth_In, I. }
  pose proof (Q 12%nat ltac:(lia)). pose proof (Q 13%nat ltac:(lia)). pose proof (Q 14%nat ltac:(lia)) as H14. pose proof (Q 15%nat ltac:(lia)).
  rewrite N.mod_small by lia.
  assert (Z : N.land (nth 15 m 0 * 256) (nth 14 m 0) = 0).
  { apply N.bits_inj. intros i. rewrite N.land_spec, N.bits_0. destruct (N.lt_ge_cases i 8).
    - change 256 with (2 ^ 8). rewrite N.mul_pow2_bits_low by lia. reflexivity.
    - rewrite (testbit_lt_pow2 (nth 14 m 0) 8) by assumption. apply andb_false_r. }
  rewrite <- N.lxor_lor, <- N.add_nocarry_lxor by exact Z. unfold superframe, le_word.
  change (4 * 3)%nat with 12%nat. cbn [Nat.add]. apply (N.div_unique _ _ _ (nth 12 m 0 + 256 * nth 13 m 0)); lia.
Qed.
Lemma test_good m buf : length buf = 16%nat -> (forall k, (k < 128)%nat -> bit_at buf k = sent_bit m k) ->
  exists b, gloTest buf = Some b /\ (b = true <-> good_string m).
Proof.
  intros L B. rewrite gloTest_icd by lia. eexists. split; [reflexivity|]. unfold good_string, c_sigma, checksums, checksum.
  assert (X : forall s, Forall (fun b => 1 <= b <= 85)%nat s -> map (icd_bit buf) s = map (sbit m) s).
  { intros s F. apply map_ext_in. intros b I. unfold icd_bit, sbit. apply B. lia. }
  assert (Y : map (fun s => parity (map (icd_bit buf) s)) icd_sets = map (fun s => parity (map (sbit m) s)) icd_sets).
  { apply map_ext_in. intros s I. rewrite X; [reflexivity|].
    assert (F : Forall (Forall (fun b => 1 <= b <= 85)%nat) icd_sets).
    { apply Forall_forall. intros t T. apply Forall_forall. intros b Ib.
      assert (K : forallb (fun t => forallb (fun b => (1 <=? b)%nat && (b <=? 85)%nat) t) icd_sets = true) by (vm_compute; reflexivity).
      rewrite forallb_forall in K. specialize (K t T). rewrite forallb_forall in K. specialize (K b Ib).
      apply andb_true_iff in K. destruct K as [K1 K2]. apply Nat.leb_le in K1. apply Nat.leb_le in K2. lia. }
    rewrite Forall_forall in F. apply F. assumption. }
  rewrite Y. rewrite X.
  - reflexivity.
  - apply Forall_forall. intros b I. unfold range in I. apply in_seq in I. lia.
Qed.
Definition goodb (m : list N) : bool :=
  icd_accepts (map (fun s => parity (map (sbit m) s)) icd_sets) (parity (map (sbit m) (range 1 85))).

(** ** One call *)
Definition conv (s : gloeph) : option gloeph := convertTime s.
Definition base (m : list N) (s : gloeph) : gloeph :=
  mkGlo (s1 s) (s2 s) (s3 s) (s4 s) (s5 s) (if superframe m =? mark s then flags s else 0) (superframe m) (tof s) (toe s).
Definition put (k : N) (m : list N) (s : gloeph) : gloeph :=
  let fl := N.lor (flags s) (2 ^ (k - 1)) in
  mkGlo (if k =? 1 then icd_str1 m else s1 s) (if k =? 2 then icd_str2 m else s2 s) (if k =? 3 then icd_str3 m else s3 s)
        (if k =? 4 then icd_str4 m else s4 s) (if k =? 5 then icd_str5 m else s5 s) fl (mark s) (tof s) (toe s).
Definition timed (k : N) (s : gloeph) : option gloeph := if (k =? 3) || (k =? 4) then Some s else convertTime s.

Section Frames.
  Variables (m buf : list N).
  Hypothesis Hb : bytes_ok buf.
  Hypothesis Lb : length buf = 16%nat.
  Hypothesis Bb : forall k, (k < 128)%nat -> bit_at buf k = sent_bit m k.
  Lemma rdU len pos hi lo : hi = (85 - pos)%nat -> lo = (86 - pos - len)%nat -> (1 <= len <= 56)%nat -> (pos + len <= 85)%nat ->
    getBit len buf pos = Some (fld m hi lo).
  Proof.
    intros -> -> H1 H2. rewrite getBit_bits by (assumption || lia). f_equal. unfold fld. rewrite bits_seq by lia. f_equal.
    replace (85 - (85 - pos))%nat with pos by lia. replace (S (85 - pos) - (86 - pos - len))%nat with len by lia.
    apply map_ext_in. intros k K. apply in_seq in K. apply Bb. lia.
  Qed.
  Lemma rdG len pos fs hi lo : hi = (85 - pos)%nat -> lo = (86 - pos - len)%nat -> (2 <= len <= 57)%nat -> (pos + len <= 85)%nat ->
    glo len buf pos fs = Some (Sc (fldS m hi lo) fs).
  Proof.
    intros -> -> H1 H2. unfold glo. rewrite getBitGlo_bits by (assumption || lia). rewrite bind_some. f_equal. unfold fldS. f_equal. f_equal.
    rewrite bits_seq by lia.
    replace (85 - (85 - pos))%nat with pos by lia. replace (S (85 - pos) - (86 - pos - len))%nat with len by lia.
    apply map_ext_in. intros k K. apply in_seq in K. apply Bb. lia.
  Qed.
  Ltac go := repeat (match goal with
    | |- bind (getBit ?l _ ?p) _ = _ => rewrite (rdU l p _ _ eq_refl eq_refl) by lia
    | |- bind (glo ?l _ ?p ?f) _ = _ => rewrite (rdG l p f _ _ eq_refl eq_refl) by lia end; rewrite bind_some).
  Ltac fin := cbn [Nat.sub]; f_equal; reflexivity.
  Lemma frame1_ok s : frame1 buf s = timed 1 (put 1 m s).
  Proof. unfold frame1. go. reflexivity. Qed.
  Lemma frame2_ok s : frame2 buf s = timed 2 (put 2 m s).
  Proof. unfold frame2. go. reflexivity. Qed.
  Lemma frame3_ok s : frame3 buf s = timed 3 (put 3 m s).
  Proof. unfold frame3. go. reflexivity. Qed.
  Lemma frame4_ok s : frame4 buf s = timed 4 (put 4 m s).
  Proof. unfold frame4. go. reflexivity. Qed.
  Lemma frame5_ok s : frame5 buf s = timed 5 (put 5 m s).
  Proof. unfold frame5. go. reflexivity. Qed.
End Frames.

Definition okb (m : list N) : bool := goodb m && (1 <=? number m) && (number m <=? 5).
Lemma okb_imm m : okb m = true <-> immediate m.
Proof.
  unfold okb, immediate, good_string, goodb. rewrite !andb_true_iff, !N.leb_le. tauto.
Qed.
Definition step (s : gloeph) (m : list N) : option (bool * gloeph) :=
  if okb m then
    do s' <- timed (number m) (put (number m) m (base m s));
    Some ((flags s' =? 31) && (number m =? 5), s')
  else Some (false, s).

Lemma parse_step s m : buffer m -> parse s m = step s m.
Proof.
  intros H. destruct (buf_facts m H) as (buf & E & L & O & B & B12 & B13). destruct (test_good m buf L B) as (g & G & Gg).
  unfold parse. destruct (Nat.ltb_spec (length m) 16) as [X|_]; [destruct H; lia|].
  rewrite E, bind_some, G, bind_some. rewrite (rdU m buf O L B 4 1 84 81) by lia. fold (number m). unfold step, okb.
  change (good_string m) with (goodb m = true) in Gg.
  replace (goodb m) with g by (destruct g, (goodb m); try reflexivity; intuition congruence).
  destruct g; cbn [negb andb]; [|reflexivity]. rewrite bind_some.
  destruct (N.ltb_spec (number m) 1); [destruct (N.leb_spec 1 (number m)); [lia|reflexivity]|].
  destruct (N.leb_spec 1 (number m)); [|lia]. cbn [orb andb].
  destruct (N.ltb_spec 5 (number m)); [destruct (N.leb_spec (number m) 5); [lia|reflexivity]|].
  destruct (N.leb_spec (number m) 5); [|lia]. cbn [orb andb].
  rewrite B12, bind_some, B13, bind_some, mark_eq by assumption. cbv zeta.
  set (s0 := mkGlo (s1 s) (s2 s) (s3 s) (s4 s) (s5 s) (if negb (superframe m =? mark s) then 0 else flags s) (superframe m) (tof s) (toe s)).
  assert (E0 : s0 = base m s) by (unfold s0, base; destruct (superframe m =? mark s); reflexivity).
  rewrite E0. clearbody s0.
  assert (FR : (if number m =? 1 then frame1 buf (base m s) else if number m =? 2 then frame2 buf (base m s)
      else if number m =? 3 then frame3 buf (base m s) else if number m =? 4 then frame4 buf (base m s) else frame5 buf (base m s))
      = timed (number m) (put (number m) m (base m s))).
  { assert (C : number m = 1 \/ number m = 2 \/ number m = 3 \/ number m = 4 \/ number m = 5) by lia.
    destruct C as [C|[C|[C|[C|C]]]]; rewrite C; cbn [N.eqb Pos.eqb].
    - apply frame1_ok; assumption.
    - apply frame2_ok; assumption.
    - apply frame3_ok; assumption.
    - apply frame4_ok; assumption.
    - apply frame5_ok; assumption. }
  rewrite FR. destruct (timed (number m) (put (number m) m (base m s))) as [s'|]; [|reflexivity]. rewrite !bind_some.
  change (N.lor (N.lor (N.lor (N.lor FRAME1 FRAME2) FRAME3) FRAME4) FRAME5) with 31.
  destruct (flags s' =? 31), (number m =? 5); reflexivity.
Qed.

Lemma rejected s m : Forall (fun b => b < 256) m -> ((length m < 16)%nat \/ ~ immediate m) -> parse s m = Some (false, s).
Proof.
  intros B H. destruct (Nat.lt_ge_cases (length m) 16) as [L|L].
  - unfold parse. destruct (Nat.ltb_spec (length m) 16); [reflexivity|lia].
  - destruct H as [H|H]; [lia|]. rewrite parse_step by (split; assumption). unfold step. pose proof (okb_imm m) as K.
    destruct (okb m); [|reflexivity]. exfalso. apply H, K. reflexivity.
Qed.

(** ** Times *)
Lemma conv_inv s s' : convertTime s = Some s' ->
  s1 s' = s1 s /\ s2 s' = s2 s /\ s3 s' = s3 s /\ s4 s' = s4 s /\ s5 s' = s5 s /\ flags s' = flags s /\ mark s' = mark s.
Proof.
  unfold convertTime. intros E. destruct (negb (got s FRAME4) || negb (got s FRAME5)).
  - assert (X : s = s') by congruence. subst. repeat split.
  - repeat match type of E with bind ?x _ = _ => destruct x; cbn [bind] in E; [|discriminate] end.
    assert (X : forall (x y : gloeph), Some x = Some y -> y = x) by congruence. apply X in E. subst. repeat split.
Qed.
Lemma timed_inv k s s' : timed k s = Some s' ->
  s1 s' = s1 s /\ s2 s' = s2 s /\ s3 s' = s3 s /\ s4 s' = s4 s /\ s5 s' = s5 s /\ flags s' = flags s /\ mark s' = mark s.
Proof.
  unfold timed. destruct ((k =? 3) || (k =? 4)); [|apply conv_inv]. intros E. assert (X : s = s') by congruence. subst. repeat split.
Qed.

Lemma i32_in z : (- 2 ^ 31 <= z < 2 ^ 31)%Z -> i32 z = Some z.
Proof.
  intros H. unfold i32, fits. change (32 - 1)%Z with 31%Z.
  destruct (Z.leb_spec (- 2 ^ 31) z); [|lia]. destruct (Z.ltb_spec z (2 ^ 31)); [|lia]. reflexivity.
Qed.
Lemma i64_in z : (- 2 ^ 63 <= z < 2 ^ 63)%Z -> i64 z = Some z.
Proof.
  intros H. unfold i64, fits. change (64 - 1)%Z with 63%Z.
  destruct (Z.leb_spec (- 2 ^ 63) z); [|lia]. destruct (Z.ltb_spec z (2 ^ 63)); [|lia]. reflexivity.
Qed.
Definition bounded (s : gloeph) : Prop :=
  tk_h (s1 s) < 32 /\ tk_m (s1 s) < 64 /\ tk_s (s1 s) <= 30 /\ tb (s2 s) < 128.
Lemma conv_ok s : N4 (s5 s) <= 18 -> NA (s5 s) < 2048 ->
  (got s FRAME1 = true -> tk_h (s1 s) < 32 /\ tk_m (s1 s) < 64 /\ tk_s (s1 s) <= 30) -> (got s FRAME2 = true -> tb (s2 s) < 128) ->
  exists s', convertTime s = Some s' /\
    (got s FRAME1 = true -> got s FRAME4 = true -> got s FRAME5 = true ->
       normal (tof s') /\ instant (tof s') = glo_instant (Z.of_N (N4 (s5 s))) (Z.of_N (NA (s5 s)))
         (Z.of_N (tk_h (s1 s)) * 3600 + Z.of_N (tk_m (s1 s)) * 60 + Z.of_N (tk_s (s1 s)))) /\
    (got s FRAME2 = true -> got s FRAME4 = true -> got s FRAME5 = true ->
       normal (toe s') /\ instant (toe s') = glo_instant (Z.of_N (N4 (s5 s))) (Z.of_N (NA (s5 s))) (Z.of_N (tb (s2 s)) * 900)).
Proof.
  intros H4 HA H1 H2. unfold convertTime.
  destruct (got s FRAME4); cbn [negb orb]; [|exists s; repeat split; discriminate].
  destruct (got s FRAME5); cbn [negb orb]; [|exists s; repeat split; discriminate].
  change (3 * SEC_IN_YEAR + SEC_IN_LEAP_YEAR)%Z with 126230400%Z. change SEC_IN_DAY with 86400%Z.
  rewrite i32_in by lia. rewrite bind_some. unfold add_int at 1. rewrite i64_in; [|cbn [sec Jan1_1996]; lia]. rewrite !bind_some.
  unfold sub_int. rewrite i64_in by (cbn [sec Jan1_1996]; lia). rewrite !bind_some.
  rewrite i32_in by lia. rewrite bind_some. unfold add_int at 1. rewrite i64_in; [|cbn [sec Jan1_1996]; lia]. rewrite !bind_some.
  cbn [sec nsec Jan1_1996].
  destruct (got s FRAME1); [specialize (H1 eq_refl)|clear H1]; (destruct (got s FRAME2); [specialize (H2 eq_refl)|clear H2]);
    unfold add_int; repeat (rewrite i64_in by (cbn [sec nsec]; lia); rewrite !bind_some);
    eexists; (split; [reflexivity|]); cbn [tof toe]; split; intros; try discriminate;
    unfold normal, instant, glo_instant; cbn [sec nsec]; lia.
Qed.
Lemma conv_overflow s : got s FRAME4 = true -> got s FRAME5 = true -> 19 <= N4 (s5 s) -> convertTime s = None.
Proof.
  intros G4 G5 H. unfold convertTime. rewrite G4, G5. cbn [negb orb].
  change (3 * SEC_IN_YEAR + SEC_IN_LEAP_YEAR)%Z with 126230400%Z. unfold i32 at 1, fits. change (32 - 1)%Z with 31%Z.
  destruct (Z.ltb_spec ((Z.of_N (N4 (s5 s)) - 1) * 126230400) (2 ^ 31)); [lia|]. rewrite andb_false_r. reflexivity.
Qed.

(** ** Histories *)
Lemma run_app : forall h1 h2 s, run s (h1 ++ h2) =
  (do x <- run s h1; do y <- run (snd x) h2; Some (fst x ++ fst y, snd y)).
Proof.
  induction h1 as [|m h1 IH]; intros h2 s.
  - cbn [app run bind]. cbn [fst snd app]. destruct (run s h2) as [[rs s']|]; reflexivity.
  - cbn [app run]. destruct (parse s m) as [[b s']|]; cbn [bind fst snd]; [|reflexivity].
    rewrite IH. destruct (run s' h1) as [[rs s'']|]; cbn [bind fst snd]; [|reflexivity].
    destruct (run s'' h2) as [[rs2 s3']|]; reflexivity.
Qed.
Lemma run_snoc_inv h m s rs s' : run s (h ++ [m]) = Some (rs, s') -> buffer m ->
  exists rs0 b t, rs = rs0 ++ [b] /\ run s h = Some (rs0, t) /\ step t m = Some (b, s').
Proof.
  intros E B. rewrite run_app in E. destruct (run s h) as [[rs0 t]|]; cbn [bind fst snd] in E; [|discriminate].
  cbn [run] in E. rewrite parse_step in E by assumption.
  destruct (step t m) as [[b t']|] eqn:E1; cbn [bind fst snd] in E; [|discriminate].
  injection E as <- <-. exists rs0, b, t. split; [reflexivity|]. split; [reflexivity|exact E1].
Qed.

Lemma step_cases s m b s' : step s m = Some (b, s') ->
  (b = false /\ s' = s /\ ~ immediate m) \/
  (immediate m /\ timed (number m) (put (number m) m (base m s)) = Some s' /\ b = ((flags s' =? 31) && (number m =? 5))).
Proof.
  intros E. unfold step in E. pose proof (okb_imm m) as K. destruct (okb m).
  - right. split; [apply K; reflexivity|].
    destruct (timed (number m) (put (number m) m (base m s))) as [t|]; cbn [bind] in E; [|discriminate].
    assert (E1 := f_equal (fun o => match o with Some p => fst p | None => b end) E).
    assert (E2 := f_equal (fun o => match o with Some p => snd p | None => s' end) E). cbn [fst snd] in E1, E2. subst t. split; [reflexivity|congruence].
  - left. split; [congruence|]. split; [congruence|]. intros I. apply K in I. discriminate.
Qed.

Lemma last_new k h m : str k m -> last_str k (h ++ [m]) m.
Proof. intros H. exists h, []. split; [reflexivity|]. split; [assumption|constructor]. Qed.
Lemma last_old k h m x : ~ str k m -> last_str k h x -> last_str k (h ++ [m]) x.
Proof.
  intros H (a & b & -> & K & F). exists a, (b ++ [m]). split; [rewrite <- app_assoc; reflexivity|].
  split; [assumption|]. apply Forall_app. split; [assumption|]. constructor; [assumption|constructor].
Qed.

Section Content.
  Variables (A : Type) (get : gloeph -> A) (k : N) (mk : list N -> A).
  Hypothesis Hk : 1 <= k <= 5.
  Hypothesis Hput : forall m s, get (put (number m) m (base m s)) = if number m =? k then mk m else get s.
  Hypothesis Htim : forall t s s', timed t s = Some s' -> get s' = get s.

  Lemma run_get h : forall s rs s', Forall buffer h -> run s h = Some (rs, s') ->
    (exists m, last_str k h m /\ get s' = mk m) \/ (Forall (fun x => ~ str k x) h /\ get s' = get s).
  Proof.
    induction h as [|m h IH] using rev_ind; intros s rs s' F E.
    - cbn [run] in E. injection E as <- <-. right. split; [constructor|reflexivity].
    - apply Forall_app in F. destruct F as [F Fm]. apply Forall_cons_iff in Fm. destruct Fm as [Bm _].
      destruct (run_snoc_inv h m s rs s' E Bm) as (rs0 & b & t & _ & E0 & E1).
      assert (ST : (str k m /\ get s' = mk m) \/ (~ str k m /\ get s' = get t)).
      { destruct (step_cases t m b s' E1) as [(_ & -> & N)|(I & T & _)].
        - right. split; [|reflexivity]. intros (G & Q). apply N. split; [assumption|lia].
        - rewrite (Htim _ _ _ T), Hput. destruct (N.eqb_spec (number m) k) as [Q|Q].
          + left. split; [split; [apply I|assumption]|reflexivity].
          + right. split; [|reflexivity]. intros (_ & Q'). contradiction. }
      destruct ST as [(K & X)|(K & X)].
      + left. exists m. split; [apply last_new; assumption|assumption].
      + destruct (IH s rs0 t F E0) as [(x & Lx & Gx)|(Fx & Gx)].
        * left. exists x. split; [apply last_old; assumption|congruence].
        * right. split; [|congruence]. apply Forall_app. split; [assumption|]. constructor; [assumption|constructor].
  Qed.
End Content.

(** a string [k] of superframe [mk] since which no other superframe was seen *)
Definition hist (P : list N -> Prop) (h : list (list N)) (mk : N) : Prop :=
  exists a m b, h = a ++ m :: b /\ P m /\ superframe m = mk /\ Forall (fun x => immediate x -> superframe x = mk) b.
Lemma snoc_split {A} (h : list A) m a x b : h ++ [m] = a ++ x :: b -> (h = a /\ m = x /\ b = []) \/ exists b', b = b' ++ [m] /\ h = a ++ x :: b'.
Proof.
  intros E. destruct b as [|y b] using rev_ind.
  - left. apply app_inj_tail in E. destruct E as [-> ->]. auto.
  - right. exists b. rewrite app_comm_cons, app_assoc in E. apply app_inj_tail in E. destruct E as [-> ->]. split; reflexivity.
Qed.
Lemma hist_snoc P h m mk : hist P (h ++ [m]) mk <->
  (P m /\ superframe m = mk) \/ (hist P h mk /\ (immediate m -> superframe m = mk)).
Proof.
  split.
  - intros (a & x & b & E & Px & S & F). destruct (snoc_split h m a x b E) as [(-> & -> & ->)|(b' & -> & ->)].
    + left. auto.
    + right. apply Forall_app in F. destruct F as [F Fm]. apply Forall_cons_iff in Fm. split; [exists a, x, b'; auto|apply Fm].
  - intros [(Pm & S)|((a & x & b & -> & Px & S & F) & I)].
    + exists h, m, []. repeat split; try assumption. constructor.
    + exists a, x, (b ++ [m]). split; [rewrite <- app_assoc; reflexivity|]. split; [assumption|]. split; [assumption|].
      apply Forall_app. split; [assumption|]. constructor; [assumption|constructor].
Qed.

Lemma lor_bit a k j : N.testbit (N.lor a (2 ^ k)) j = N.testbit a j || (j =? k).
Proof.
  rewrite N.lor_spec. f_equal. destruct (N.eqb_spec j k) as [->|H]; [apply N.pow2_bits_true|apply N.pow2_bits_false; congruence].
Qed.

Lemma flags_hist h : forall s rs s', fresh s -> Forall buffer h -> run s h = Some (rs, s') ->
  flags s' < 32 /\
  (forall mk, hist immediate h mk -> mark s' = mk) /\
  (forall k, 1 <= k <= 5 -> (N.testbit (flags s') (k - 1) = true <-> hist (str k) h (mark s'))).
Proof.
  induction h as [|m h IH] using rev_ind; intros s rs s' Fr F E.
  - cbn [run] in E. injection E as <- <-. destruct Fr as [F0 M0]. rewrite F0. split; [lia|]. split.
    + intros mk (a & x & b & X & _). destruct a; discriminate.
    + intros k K. rewrite N.bits_0. split; [discriminate|]. intros (a & x & b & X & _). destruct a; discriminate.
  - apply Forall_app in F. destruct F as [F Fm]. apply Forall_cons_iff in Fm. destruct Fm as [Bm _].
    destruct (run_snoc_inv h m s rs s' E Bm) as (rs0 & b & t & _ & E0 & E1).
    destruct (IH s rs0 t Fr F E0) as (L & M & K).
    destruct (step_cases t m b s' E1) as [(_ & -> & N)|(I & T & _)].
    + split; [assumption|]. split.
      * intros mk X. apply hist_snoc in X. destruct X as [(Q & _)|(X & _)]; [contradiction|]. apply M, X.
      * intros k Hk. rewrite (K k Hk), hist_snoc. split; [intros X; right; split; [assumption|contradiction]|].
        intros [(X & _)|(X & _)]; [|assumption]. exfalso. apply N. destruct X as [G Q]. split; [assumption|lia].
    + apply timed_inv in T. destruct T as (_ & _ & _ & _ & _ & Tf & Tm). unfold put, base in Tf, Tm. cbn [flags mark] in Tf, Tm.
      pose proof I as (G & N1).
      assert (L' : flags s' < 32).
      { rewrite Tf. change 32 with (2 ^ 5). apply lt_pow2_testbit. intros j J. rewrite lor_bit.
        destruct (N.eqb_spec j (number m - 1)); [lia|]. rewrite orb_false_r.
        destruct (superframe m =? mark t); [|apply N.bits_0]. apply (testbit_lt_pow2 _ 5); [exact L|assumption]. }
      split; [assumption|]. split.
      * intros mk X. rewrite Tm. apply hist_snoc in X. destruct X as [(_ & X)|(_ & X)]; [exact X|apply X, I].
      * intros k Hk. rewrite Tf, Tm, lor_bit, hist_snoc. destruct (N.eqb_spec (k - 1) (number m - 1)) as [Q|Q].
        -- rewrite orb_true_r. split; [|reflexivity]. intros _. left. split; [split; [assumption|lia]|reflexivity].
        -- rewrite orb_false_r. destruct (N.eqb_spec (superframe m) (mark t)) as [S|S].
           ++ rewrite (K k Hk), S. split; [intros X; right; auto|]. intros [((_ & X) & _)|(X & _)]; [lia|assumption].
           ++ rewrite N.bits_0. split; [discriminate|]. intros [((_ & X) & _)|(X & _)]; [lia|]. exfalso. apply S. symmetry.
              apply M. destruct X as (a & x & c & -> & Sx & Mx & Fx). exists a, x, c. split; [reflexivity|]. split; [|auto].
              destruct Sx. split; [assumption|lia].
Qed.

Lemma exists_last_hist P h mk : hist P h mk -> Exists P h.
Proof. intros (a & m & b & -> & H & _). apply Exists_app. right. left. assumption. Qed.

(** strings 1 to 4 in a common suffix *)
Lemma hist_merge (P Q : list N -> Prop) h mk : hist P h mk -> hist Q h mk ->
  exists a b, h = a ++ b /\ Forall (fun x => immediate x -> superframe x = mk) b /\ Exists P b /\ Exists Q b.
Proof.
  intros (a & x & b & -> & Px & Sx & Fx) (a' & y & b' & E & Qy & Sy & Fy).
  assert (W : Forall (fun z => immediate z -> superframe z = mk) (x :: b)) by (constructor; auto).
  assert (W' : Forall (fun z => immediate z -> superframe z = mk) (y :: b')) by (constructor; auto).
  destruct (Nat.le_ge_cases (length a) (length a')) as [L|L].
  - exists a, (x :: b). split; [reflexivity|]. split; [assumption|]. split; [left; assumption|].
    assert (S : exists c, x :: b = c ++ y :: b').
    { clear - E L. revert a' E L. induction a as [|z a IH]; intros a' E L; [exists a'; exact E|].
      destruct a' as [|z' a']; [cbn in L; lia|]. cbn [app] in E. injection E as _ E. apply (IH a' E). cbn in L. lia. }
    destruct S as (c & ->). apply Exists_app. right. left. assumption.
  - rewrite E. exists a', (y :: b'). split; [reflexivity|]. split; [assumption|]. split; [|left; assumption].
    assert (S : exists c, y :: b' = c ++ x :: b).
    { clear - E L. symmetry in E. revert a E L. induction a' as [|z a' IH]; intros a E L; [exists a; exact E|].
      destruct a as [|z' a]; [cbn in L; lia|]. cbn [app] in E. injection E as _ E. apply (IH a E). cbn in L. lia. }
    destruct S as (c & ->). apply Exists_app. right. left. assumption.
Qed.
Lemma hist_suffix (P : list N -> Prop) a b mk : Forall (fun x => immediate x -> superframe x = mk) b ->
  (forall x, P x -> immediate x) -> Exists P b -> hist P (a ++ b) mk.
Proof.
  intros F I E. apply Exists_exists in E. destruct E as (x & In_x & Px). apply in_split in In_x. destruct In_x as (b1 & b2 & ->).
  apply Forall_app in F. destruct F as [_ F]. apply Forall_cons_iff in F. destruct F as [Fx F].
  exists (a ++ b1), x, b2. split; [rewrite app_assoc; reflexivity|]. split; [assumption|]. split; [auto|assumption].
Qed.
Lemma hist_widen (P Q : list N -> Prop) a b mk h : h = a ++ b -> Forall (fun x => immediate x -> superframe x = mk) b ->
  Exists P b -> hist Q h mk -> exists a' b', h = a' ++ b' /\ Forall (fun x => immediate x -> superframe x = mk) b' /\ (exists c, b' = c ++ b) /\ Exists Q b'.
Proof.
  intros -> F EP (a' & y & b' & E & Qy & Sy & Fy).
  destruct (Nat.le_ge_cases (length a') (length a)) as [L|L].
  - exists a', (y :: b'). split; [assumption|]. split; [constructor; auto|]. split; [|left; assumption].
    symmetry in E. clear - E L. revert a E L. induction a' as [|z a' IH]; intros a E L; [exists a; exact E|].
    destruct a as [|z' a]; [cbn in L; lia|]. cbn [app] in E. injection E as _ E. apply (IH a E). cbn in L. lia.
  - exists a, b. split; [reflexivity|]. split; [assumption|]. split; [exists []; reflexivity|].
    assert (S : exists c, b = c ++ y :: b').
    { clear - E L. revert a' E L. induction a as [|z a IH]; intros a' E L; [exists a'; exact E|].
      destruct a' as [|z' a']; [cbn in L; lia|]. cbn [app] in E. injection E as _ E. apply (IH a' E). cbn in L. lia. }
    destruct S as (c & ->). apply Exists_app. right. left. assumption.
Qed.

(** ** Success *)
Lemma last_in_suffix k a b : Exists (str k) b -> exists m, last_str k (a ++ b) m.
Proof.
  intros E. induction b as [|x b IH] using rev_ind; [inversion E|].
  assert (D : str k x \/ ~ str k x).
  { destruct (goodb x) eqn:G; [|right; intros (Q & _); change (goodb x = true) in Q; congruence].
    destruct (N.eq_dec (number x) k); [left; split; assumption|right; intros (_ & Q); contradiction]. }
  destruct D as [D|D].
  - exists x. rewrite app_assoc. apply last_new. assumption.
  - apply Exists_app in E. destruct E as [E|E]; [|inversion E; [contradiction|match goal with X : Exists _ [] |- _ => inversion X end]].
    destruct (IH E) as (m & L). exists m. rewrite app_assoc. apply last_old; assumption.
Qed.

Lemma get_s1 m s : s1 (put (number m) m (base m s)) = if number m =? 1 then icd_str1 m else s1 s. Proof. reflexivity. Qed.
Lemma get_s2 m s : s2 (put (number m) m (base m s)) = if number m =? 2 then icd_str2 m else s2 s. Proof. reflexivity. Qed.
Lemma get_s3 m s : s3 (put (number m) m (base m s)) = if number m =? 3 then icd_str3 m else s3 s. Proof. reflexivity. Qed.
Lemma get_s4 m s : s4 (put (number m) m (base m s)) = if number m =? 4 then icd_str4 m else s4 s. Proof. reflexivity. Qed.
Lemma get_s5 m s : s5 (put (number m) m (base m s)) = if number m =? 5 then icd_str5 m else s5 s. Proof. reflexivity. Qed.

Lemma got_bit s k : got s (2 ^ k) = N.testbit (flags s) k.
Proof.
  unfold got. destruct (N.testbit (flags s) k) eqn:T.
  - destruct (N.eqb_spec (N.land (flags s) (2 ^ k)) 0) as [Z|Z]; [|reflexivity].
    assert (X := f_equal (fun n => N.testbit n k) Z). cbn beta in X. rewrite N.land_spec, N.pow2_bits_true, T, N.bits_0 in X. discriminate.
  - destruct (N.eqb_spec (N.land (flags s) (2 ^ k)) 0) as [Z|Z]; [reflexivity|]. exfalso. apply Z. apply N.bits_inj. intros j.
    rewrite N.land_spec, N.bits_0. destruct (N.eq_dec j k) as [->|Q]; [rewrite T; reflexivity|].
    rewrite N.pow2_bits_false by congruence. apply andb_false_r.
Qed.
Lemma fld_lt m hi lo : (lo <= hi <= 85)%nat -> fld m hi lo < 2 ^ N.of_nat (S hi - lo).
Proof. intros H. unfold fld. pose proof (bits_val_lt (bits m hi lo)) as L. rewrite (bits_seq m hi lo H), map_length, seq_length in L. rewrite (bits_seq m hi lo H). exact L. Qed.
Lemma str1_bounds m : tk_h (icd_str1 m) < 32 /\ tk_m (icd_str1 m) < 64 /\ tk_s (icd_str1 m) <= 30.
Proof.
  cbn [icd_str1 tk_h tk_m tk_s]. pose proof (fld_lt m 76 72 ltac:(lia)) as A. pose proof (fld_lt m 71 66 ltac:(lia)) as B. pose proof (fld_lt m 65 65 ltac:(lia)) as C.
  change (2 ^ N.of_nat (77 - 72)) with 32 in A. change (2 ^ N.of_nat (72 - 66)) with 64 in B. change (2 ^ N.of_nat (66 - 65)) with 2 in C. lia.
Qed.
Lemma str2_bounds m : tb (icd_str2 m) < 128.
Proof. cbn [icd_str2 tb]. exact (fld_lt m 76 70 ltac:(lia)). Qed.
Lemma str5_bounds m : NA (icd_str5 m) < 2048.
Proof. cbn [icd_str5 NA]. exact (fld_lt m 80 70 ltac:(lia)). Qed.

Lemma flags31 n : n < 32 -> (n = 31 <-> forall k, 1 <= k <= 5 -> N.testbit n (k - 1) = true).
Proof.
  intros L. split.
  - intros -> k K. assert (C : k = 1 \/ k = 2 \/ k = 3 \/ k = 4 \/ k = 5) by lia. destruct C as [ -> | [ -> | [ -> | [ -> | -> ] ] ] ]; reflexivity.
  - intros H. apply N.bits_inj. intros j. destruct (N.lt_ge_cases j 5) as [J|J].
    + specialize (H (j + 1) ltac:(lia)). replace (j + 1 - 1) with j in H by lia. rewrite H.
      assert (C : j = 0 \/ j = 1 \/ j = 2 \/ j = 3 \/ j = 4) by lia. destruct C as [ -> | [ -> | [ -> | [ -> | -> ] ] ] ]; reflexivity.
    + rewrite (testbit_lt_pow2 n 5) by assumption. rewrite (testbit_lt_pow2 31 5); [reflexivity|reflexivity|assumption].
Qed.

Lemma str_imm k x : 1 <= k <= 5 -> str k x -> immediate x.
Proof. intros H (G & N). split; [assumption|lia]. Qed.

Lemma step_conv s m b s' : step s m = Some (b, s') -> number m = 5 -> immediate m ->
  convertTime (put 5 m (base m s)) = Some s'.
Proof.
  intros E N I. destruct (step_cases s m b s' E) as [(_ & _ & X)|(_ & T & _)]; [contradiction|]. rewrite N in T. exact T.
Qed.

Lemma success h m s rs s' : fresh s -> Forall buffer (h ++ [m]) -> run s (h ++ [m]) = Some (rs ++ [true], s') ->
  complete (h ++ [m]) /\ str 5 m /\
  exists m1 m2 m3 m4, last_str 1 (h ++ [m]) m1 /\ last_str 2 (h ++ [m]) m2 /\ last_str 3 (h ++ [m]) m3 /\ last_str 4 (h ++ [m]) m4 /\
    s1 s' = icd_str1 m1 /\ s2 s' = icd_str2 m2 /\ s3 s' = icd_str3 m3 /\ s4 s' = icd_str4 m4 /\ s5 s' = icd_str5 m /\
    let n4 := Z.of_N (fld m 36 32) in let na := Z.of_N (fld m 80 70) in
    normal (tof s') /\ instant (tof s') = glo_instant n4 na (Z.of_N (tk_h (icd_str1 m1)) * 3600 + Z.of_N (tk_m (icd_str1 m1)) * 60 + Z.of_N (tk_s (icd_str1 m1))) /\
    normal (toe s') /\ instant (toe s') = glo_instant n4 na (Z.of_N (fld m2 76 70) * 900).
Proof.
  intros Fr F E. destruct (flags_hist _ _ _ _ Fr F E) as (L & M & K).
  pose proof F as F'. apply Forall_app in F'. destruct F' as [Fh Fm]. apply Forall_cons_iff in Fm. destruct Fm as [Bm _].
  destruct (run_snoc_inv h m s _ s' E Bm) as (rs0 & b & t & Eb & E0 & E1). apply app_inj_tail in Eb. destruct Eb as [_ <-].
  pose proof E1 as E1'. apply step_cases in E1'. destruct E1' as [(X & _)|(I & T & B)]; [discriminate|].
  symmetry in B. apply andb_true_iff in B. destruct B as [B1 B2]. apply N.eqb_eq in B1. apply N.eqb_eq in B2.
  assert (S5 : str 5 m) by (split; [apply I|assumption]).
  pose proof (proj1 (flags31 _ L) B1) as K'.
  assert (Mm : mark s' = superframe m).
  { apply M. apply hist_snoc. left. split; [assumption|reflexivity]. }
  assert (HK : forall k, 1 <= k <= 4 -> hist (str k) h (superframe m)).
  { intros k Hk. specialize (K k ltac:(lia)). rewrite K' in K by lia. destruct K as [K _]. specialize (K eq_refl). rewrite Mm in K.
    apply hist_snoc in K. destruct K as [((_ & X) & _)|(X & _)]; [lia|assumption]. }
  assert (CO : exists a b, h = a ++ b /\ Forall (fun x => immediate x -> superframe x = superframe m) b /\
     Exists (str 1) b /\ Exists (str 2) b /\ Exists (str 3) b /\ Exists (str 4) b).
  { destruct (hist_merge _ _ h _ (HK 1 ltac:(lia)) (HK 2 ltac:(lia))) as (a & b & EQ & Fb & X1 & X2).
    destruct (hist_widen _ _ a b _ h EQ Fb X1 (HK 3 ltac:(lia))) as (a3 & b3 & EQ3 & Fb3 & (c3 & C3) & X3).
    destruct (hist_widen _ _ a3 b3 _ h EQ3 Fb3 X3 (HK 4 ltac:(lia))) as (a4 & b4 & EQ4 & Fb4 & (c4 & C4) & X4).
    exists a4, b4. split; [assumption|]. split; [assumption|]. subst b4 b3.
    split; [apply Exists_app; right; apply Exists_app; right; assumption|].
    split; [apply Exists_app; right; apply Exists_app; right; assumption|].
    split; [apply Exists_app; right; assumption|assumption]. }
  destruct CO as (a & b & EQ & Fb & X1 & X2 & X3 & X4).
  split; [exists a, b, m; split; [rewrite EQ, <- app_assoc; reflexivity|]; repeat split; assumption || apply S5|].
  split; [assumption|].
  assert (G1 : exists m1, last_str 1 (h ++ [m]) m1 /\ s1 s' = icd_str1 m1).
  { destruct (run_get _ s1 1 icd_str1 ltac:(lia) get_s1 (fun t s s' H => proj1 (timed_inv t s s' H)) _ s _ s' F E) as [X|(X & _)]; [exact X|].
    exfalso. rewrite EQ in X. apply Forall_app in X. destruct X as [X _]. apply Forall_app in X. destruct X as [_ X]. apply Exists_exists in X1. destruct X1 as (z & Z1 & Z2). rewrite Forall_forall in X. exact (X z Z1 Z2). }
  assert (G2 : exists m1, last_str 2 (h ++ [m]) m1 /\ s2 s' = icd_str2 m1).
  { destruct (run_get _ s2 2 icd_str2 ltac:(lia) get_s2 (fun t s s' H => proj1 (proj2 (timed_inv t s s' H))) _ s _ s' F E) as [X|(X & _)]; [exact X|].
    exfalso. rewrite EQ in X. apply Forall_app in X. destruct X as [X _]. apply Forall_app in X. destruct X as [_ X]. apply Exists_exists in X2. destruct X2 as (z & Z1 & Z2). rewrite Forall_forall in X. exact (X z Z1 Z2). }
  assert (G3 : exists m1, last_str 3 (h ++ [m]) m1 /\ s3 s' = icd_str3 m1).
  { destruct (run_get _ s3 3 icd_str3 ltac:(lia) get_s3 (fun t s s' H => proj1 (proj2 (proj2 (timed_inv t s s' H)))) _ s _ s' F E) as [X|(X & _)]; [exact X|].
    exfalso. rewrite EQ in X. apply Forall_app in X. destruct X as [X _]. apply Forall_app in X. destruct X as [_ X]. apply Exists_exists in X3. destruct X3 as (z & Z1 & Z2). rewrite Forall_forall in X. exact (X z Z1 Z2). }
  assert (G4 : exists m1, last_str 4 (h ++ [m]) m1 /\ s4 s' = icd_str4 m1).
  { destruct (run_get _ s4 4 icd_str4 ltac:(lia) get_s4 (fun t s s' H => proj1 (proj2 (proj2 (proj2 (timed_inv t s s' H))))) _ s _ s' F E) as [X|(X & _)]; [exact X|].
    exfalso. rewrite EQ in X. apply Forall_app in X. destruct X as [X _]. apply Forall_app in X. destruct X as [_ X]. apply Exists_exists in X4. destruct X4 as (z & Z1 & Z2). rewrite Forall_forall in X. exact (X z Z1 Z2). }
  destruct G1 as (m1 & L1 & C1). destruct G2 as (m2 & L2 & C2). destruct G3 as (m3 & L3 & C3). destruct G4 as (m4 & L4 & C4).
  exists m1, m2, m3, m4. do 4 (split; [assumption|]). do 4 (split; [assumption|]).
  pose proof (step_conv t m true s' E1 B2 I) as CV. set (p := put 5 m (base m t)) in *.
  pose proof (conv_inv _ _ CV) as (V1 & V2 & V3 & V4 & V5 & Vf & Vm).
  assert (P5 : s5 p = icd_str5 m) by reflexivity.
  split; [congruence|]. cbv zeta.
  assert (N18 : N4 (s5 p) <= 18).
  { destruct (N.le_gt_cases (N4 (s5 p)) 18) as [Q|Q]; [assumption|]. rewrite conv_overflow in CV; [discriminate| | |lia].
    - change FRAME4 with (2 ^ 3). rewrite got_bit, <- Vf, B1. reflexivity.
    - change FRAME5 with (2 ^ 4). rewrite got_bit, <- Vf, B1. reflexivity. }
  assert (Gt : forall k, k < 5 -> got p (2 ^ k) = true).
  { intros k Hk. rewrite got_bit, <- Vf. replace k with (k + 1 - 1) by lia. apply K'. lia. }
  destruct (conv_ok p) as (q & Q & Q1 & Q2); [assumption|rewrite P5; apply str5_bounds|intros _; rewrite <- V1, C1; apply str1_bounds|intros _; rewrite <- V2, C2; apply str2_bounds|].
  assert (q = s') by congruence. subst q.
  destruct (Q1 (Gt 0 ltac:(lia)) (Gt 3 ltac:(lia)) (Gt 4 ltac:(lia))) as (Q1a & Q1b). destruct (Q2 (Gt 1 ltac:(lia)) (Gt 3 ltac:(lia)) (Gt 4 ltac:(lia))) as (Q2a & Q2b).
  rewrite P5, <- V1, C1 in Q1b. rewrite P5, <- V2, C2 in Q2b.
  exact (conj Q1a (conj Q1b (conj Q2a Q2b))).
Qed.

(** ** Always reported, always defined *)
Definition sane (s : gloeph) : Prop :=
  (got s FRAME5 = true -> N4 (s5 s) <= 18 /\ NA (s5 s) < 2048) /\
  (got s FRAME1 = true -> tk_h (s1 s) < 32 /\ tk_m (s1 s) < 64 /\ tk_s (s1 s) <= 30) /\ (got s FRAME2 = true -> tb (s2 s) < 128).
Lemma timed_defined k s : sane s -> exists s', timed k s = Some s'.
Proof.
  intros (H5 & H1 & H2). unfold timed. destruct ((k =? 3) || (k =? 4)); [eauto|].
  destruct (got s FRAME5) eqn:G5.
  - destruct (H5 eq_refl) as (A & B). destruct (conv_ok s A B H1 H2) as (s' & E & _). eauto.
  - unfold convertTime. rewrite G5, orb_true_r. eauto.
Qed.
Lemma sane_timed k s s' : timed k s = Some s' -> sane s -> sane s'.
Proof.
  intros T (H5 & H1 & H2). apply timed_inv in T. destruct T as (E1 & E2 & _ & _ & E5 & Ef & _). unfold sane, got in *. rewrite E1, E2, E5, Ef. auto.
Qed.
Lemma got_put k m s j : 1 <= k <= 5 -> got (put k m (base m s)) (2 ^ j) = ((superframe m =? mark s) && got s (2 ^ j)) || (j =? k - 1).
Proof.
  intros H. rewrite !got_bit. unfold put, base. cbn [flags]. rewrite lor_bit. f_equal. destruct (superframe m =? mark s); [reflexivity|apply N.bits_0].
Qed.
Lemma sane_put m s : immediate m -> (number m = 5 -> fld m 36 32 <= 18) -> sane s -> sane (put (number m) m (base m s)).
Proof.
  intros (G & N) W (H5 & H1 & H2). unfold sane. change FRAME5 with (2 ^ 4) in *. change FRAME1 with (2 ^ 0) in *. change FRAME2 with (2 ^ 1) in *.
  rewrite !got_put by assumption. rewrite get_s5, get_s1, get_s2.
  assert (OLD : forall j, j <> number m - 1 -> (superframe m =? mark s) && got s (2 ^ j) || (j =? number m - 1) = true -> got s (2 ^ j) = true).
  { intros j Hj X. destruct (N.eqb_spec j (number m - 1)); [lia|]. rewrite orb_false_r in X. apply andb_true_iff in X. apply X. }
  split; [|split]; intros X.
  - destruct (N.eqb_spec (number m) 5) as [Q|Q]; [split; [exact (W Q)|apply str5_bounds]|]. apply H5, OLD; [lia|assumption].
  - destruct (N.eqb_spec (number m) 1) as [Q|Q]; [apply str1_bounds|]. apply H1, OLD; [lia|assumption].
  - destruct (N.eqb_spec (number m) 2) as [Q|Q]; [apply str2_bounds|]. apply H2, OLD; [lia|assumption].
Qed.
Definition years_ok (m : list N) : Prop := str 5 m -> fld m 36 32 <= 18.
Definition wellformed (m : list N) : Prop := Forall (fun b => b < 256) m.
Lemma parse_sane s m : wellformed m -> years_ok m -> sane s -> exists b s', parse s m = Some (b, s') /\ sane s'.
Proof.
  intros B Y S. destruct (Nat.lt_ge_cases (length m) 16) as [L|L].
  { rewrite rejected by auto. eauto. }
  rewrite parse_step by (split; assumption). unfold step. pose proof (okb_imm m) as K. destruct (okb m); [|eauto].
  assert (I : immediate m) by (apply K; reflexivity).
  assert (S' : sane (put (number m) m (base m s))) by (apply sane_put; [assumption|intros Q; apply Y; split; [apply I|assumption]|assumption]).
  destruct (timed_defined (number m) _ S') as (s' & T). rewrite T, bind_some. do 2 eexists. split; [reflexivity|]. eapply sane_timed; eassumption.
Qed.
Lemma fresh_sane s : fresh s -> sane s.
Proof. intros (F & _). unfold sane, got. rewrite F. repeat split; discriminate. Qed.
Lemma run_defined h : forall s, fresh s -> Forall wellformed h -> Forall years_ok h -> exists rs s', run s h = Some (rs, s') /\ length rs = length h.
Proof.
  assert (X : forall s, sane s -> Forall wellformed h -> Forall years_ok h -> exists rs s', run s h = Some (rs, s') /\ length rs = length h).
  { induction h as [|m h IH]; intros s S B Y; [exists [], s; split; reflexivity|].
    apply Forall_cons_iff in B. destruct B as [B1 B2]. apply Forall_cons_iff in Y. destruct Y as [Y1 Y2].
    destruct (parse_sane s m B1 Y1 S) as (b & s' & E & S'). destruct (IH s' S' B2 Y2) as (rs & s'' & E2 & L).
    cbn [run]. rewrite E, bind_some. cbn [snd fst]. rewrite E2, bind_some. cbn [fst snd]. exists (b :: rs), s''. split; [reflexivity|]. cbn [length]. lia. }
  intros s Fr. apply X, fresh_sane, Fr.
Qed.

Lemma run_snoc h m s rs t b s' : run s h = Some (rs, t) -> parse t m = Some (b, s') -> run s (h ++ [m]) = Some (rs ++ [b], s').
Proof. intros E E1. rewrite run_app, E, bind_some. cbn [snd fst run]. rewrite E1. reflexivity. Qed.

Lemma reported h m s rs s' : fresh s -> Forall buffer (h ++ [m]) -> run s (h ++ [m]) = Some (rs, s') -> complete (h ++ [m]) -> last rs false = true.
Proof.
  intros Fr F E (a & b & m5 & EQ & S5 & Fb & X1 & X2 & X3 & X4).
  rewrite app_assoc in EQ. apply app_inj_tail in EQ. destruct EQ as [EQ <-].
  destruct (flags_hist _ _ _ _ Fr F E) as (L & M & K).
  pose proof F as F'. apply Forall_app in F'. destruct F' as [Fh Fm]. apply Forall_cons_iff in Fm. destruct Fm as [Bm _].
  destruct (run_snoc_inv h m s _ s' E Bm) as (rs0 & r & t & -> & E0 & E1). rewrite last_last.
  assert (I : immediate m) by (apply (str_imm 5); [lia|assumption]).
  destruct (step_cases t m r s' E1) as [(_ & _ & X)|(_ & T & ->)]; [contradiction|].
  assert (Mm : mark s' = superframe m).
  { apply M. apply hist_snoc. left. split; [assumption|reflexivity]. }
  assert (A : flags s' = 31).
  { apply flags31; [assumption|]. intros k Hk. apply (K k Hk). rewrite Mm. apply hist_snoc.
    destruct (N.eq_dec k 5) as [->|Q]; [left; split; [assumption|reflexivity]|]. right. split; [|reflexivity].
    rewrite EQ. apply hist_suffix; [assumption|intros x Sx; apply (str_imm k); assumption|].
    assert (C : k = 1 \/ k = 2 \/ k = 3 \/ k = 4) by lia. destruct C as [ -> | [ -> | [ -> | -> ] ] ]; assumption. }
  rewrite A. destruct S5 as [_ ->]. reflexivity.
Qed.


(** ** Damaged strings *)
Lemma good_ext m m' : (forall k, (k < 85)%nat -> sent_bit m k = sent_bit m' k) -> goodb m = goodb m'.
Proof.
  intros H. unfold goodb.
  assert (X : forall s, Forall (fun b => 1 <= b)%nat s -> map (sbit m) s = map (sbit m') s).
  { intros s F. apply map_ext_in. intros b I. unfold sbit. apply H. rewrite Forall_forall in F. specialize (F b I). lia. }
  f_equal.
  - apply map_ext_in. intros s I. rewrite X; [reflexivity|]. apply Forall_forall. intros b Ib.
    assert (K : forallb (fun t => forallb (fun b => (1 <=? b)%nat) t) icd_sets = true) by (vm_compute; reflexivity).
    rewrite forallb_forall in K. specialize (K s I). rewrite forallb_forall in K. specialize (K b Ib). apply Nat.leb_le in K. exact K.
  - rewrite X; [reflexivity|]. apply Forall_forall. intros b I. unfold range in I. apply in_seq in I. lia.
Qed.
Lemma test_goodb buf m : (11 <= length buf)%nat -> (forall k, (k < 85)%nat -> bit_at buf k = sent_bit m k) -> gloTest buf = Some (goodb m).
Proof.
  intros L B. rewrite gloTest_icd by assumption. f_equal. unfold goodb, c_sigma, checksums, checksum.
  assert (X : forall s, Forall (fun b => 1 <= b)%nat s -> map (icd_bit buf) s = map (sbit m) s).
  { intros s F. apply map_ext_in. intros b I. unfold sbit, icd_bit. apply B. rewrite Forall_forall in F. specialize (F b I). lia. }
  f_equal.
  - apply map_ext_in. intros s I. rewrite X; [reflexivity|]. apply Forall_forall. intros b Ib.
    assert (K : forallb (fun t => forallb (fun b => (1 <=? b)%nat) t) icd_sets = true) by (vm_compute; reflexivity).
    rewrite forallb_forall in K. specialize (K s I). rewrite forallb_forall in K. specialize (K b Ib). apply Nat.leb_le in K. exact K.
  - rewrite X; [reflexivity|]. apply Forall_forall. intros b I. unfold range in I. apply in_seq in I. lia.
Qed.
Lemma flip_length buf k : length (flip buf k) = length buf.
Proof. unfold flip. destruct (upd _ _ _) eqn:U; [|reflexivity]. symmetry. symmetry. exact (upd_length _ _ _ _ _ U). Qed.

Lemma one_bit_rejected s m m' k : buffer m -> buffer m' -> good_string m -> (k < 77)%nat ->
  (forall j, (j < 85)%nat -> sent_bit m' j = xorb (sent_bit m j) (Nat.eqb j k)) -> parse s m' = Some (false, s).
Proof.
  intros B B' G K D. apply rejected; [apply B'|]. right. intros (G' & _).
  destruct (buf_facts m B) as (buf & _ & L & _ & Bb & _).
  assert (T : gloTest buf = Some true) by (rewrite (test_goodb buf m) by (lia || (intros; apply Bb; lia)); f_equal; exact G).
  pose proof (single_error buf k ltac:(lia) T K) as T'.
  rewrite (test_goodb _ m') in T'.
  - change (goodb m' = true) in G'. congruence.
  - rewrite flip_length. lia.
  - intros j J. rewrite flip_bit by lia. rewrite Bb by lia. symmetry. apply D. assumption.
Qed.
Lemma two_bits_rejected s m m' k1 k2 : buffer m -> buffer m' ->
  map (fun s => parity (map (sbit m) s)) icd_sets = repeat false 7 -> parity (map (sbit m) (range 1 85)) = false ->
  (k1 < 85)%nat -> (k2 < 85)%nat -> k1 <> k2 ->
  (forall j, (j < 85)%nat -> sent_bit m' j = xorb (sent_bit m j) (orb (Nat.eqb j k1) (Nat.eqb j k2))) -> parse s m' = Some (false, s).
Proof.
  intros B B' C0 P0 K1 K2 N D. apply rejected; [apply B'|]. right. intros (G' & _).
  destruct (buf_facts m B) as (buf & _ & L & _ & Bb & _).
  assert (X : forall s, Forall (fun b => 1 <= b)%nat s -> map (icd_bit buf) s = map (sbit m) s).
  { intros s0 F. apply map_ext_in. intros b I. unfold sbit, icd_bit. apply Bb. lia. }
  assert (C1 : checksums buf = repeat false 7).
  { rewrite <- C0. unfold checksums, checksum. apply map_ext_in. intros s0 I. rewrite X; [reflexivity|]. apply Forall_forall. intros b Ib.
    assert (K : forallb (fun t => forallb (fun b => (1 <=? b)%nat) t) icd_sets = true) by (vm_compute; reflexivity).
    rewrite forallb_forall in K. specialize (K s0 I). rewrite forallb_forall in K. specialize (K b Ib). apply Nat.leb_le in K. exact K. }
  assert (P1 : c_sigma buf = false).
  { rewrite <- P0. unfold c_sigma, checksum. rewrite X; [reflexivity|]. apply Forall_forall. intros b I. unfold range in I. apply in_seq in I. lia. }
  pose proof (double_error buf k1 k2 ltac:(lia) C1 P1 K1 K2 N) as T'.
  rewrite (test_goodb _ m') in T'.
  - change (goodb m' = true) in G'. congruence.
  - rewrite !flip_length. lia.
  - intros j J. rewrite flip_bit by (rewrite flip_length; lia). rewrite flip_bit by lia. rewrite Bb by lia. rewrite D by assumption.
    destruct (Nat.eqb_spec j k1), (Nat.eqb_spec j k2); destruct (sent_bit m j); try reflexivity; lia.
Qed.
