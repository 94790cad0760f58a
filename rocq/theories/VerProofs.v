(** Proofs about tools/verify_ephemeris.cxx. *)
From Coq Require Import String ZArith NArith List Bool Lia Permutation.
From Verif Require Import SerializeModel SerializeSpec UtcTimeModel UtcTimeSpec UtcTimeProofs Float64 QuantizedModel LogModel LogSpec LogProofs MaintProofs GatProofs VerModel VerSpec.
Import ListNotations.
Local Open Scope string_scope.
Local Open Scope list_scope.

Lemma verify_line t v : reasonable t -> reasonable (toe_of v) -> verify t v = Some (line_for t (toe_of v)).
Proof.
  intros (Nt & St) (Ne & Se). unfold verify. destruct (sub_ok t (toe_of v) Nt Ne) as (d & E & Nd & Id); [unfold in64; lia|unfold in64; lia|].
  rewrite E. cbn [bind]. rewrite limit_ok; [|unfold in64, normal, instant in *; lia|exact Nd]. rewrite Id. reflexivity.
Qed.
Lemma no_stop dual junk cbs : forall fuel l tr tr', loop dual junk fuel cbs l [] tr <> Stopped tr'.
Proof.
  induction fuel as [|f IH]; intros l tr tr'; cbn [loop]; [discriminate|]. destruct (scan 0 l MAX_TIME None) as (m, [i|]); [|discriminate].
  destruct (eq m MAX_TIME); [discriminate|]. cbn [maintain]. destruct (nth_error l i) as [s|]; [|discriminate]. destruct (cbs (key s)) as [ts|]; [|apply IH].
  destruct (get_record dual junk ts s) as (vs, s'). apply IH.
Qed.

Section Main.
Variable translation dual : list Z -> list Z -> list Z.
Variable junk : list Z.
Hypothesis translation_ok : forall r d, List.length (translation r d) = 3%nat /\ Forall (in_range FP64) (translation r d).
Hypothesis dual_ok : forall q t, List.length (dual q t) = 4%nat /\ Forall (in_range FP64) (dual q t).
Variable gps gal glo : value.
Notation callbacks := (callbacks gps gal glo).
Notation same_record := (same_record translation dual).

(** the time of ephemeris survives *)
Lemma toe_copy k ts t data m : callbacks k = Some ts -> fits ts data -> same_record (t, data) m ->
  fst m = t /\ exists v vs, snd m = v :: vs /\ toe_of v = logged_toe data.
Proof.
  intros C (args & A1 & A2 & _) (Et & F). cbn [fst snd] in *. split; [exact Et|].
  assert (H : exists u, map fst data = [u] /\ (u = tGps \/ u = tGal \/ u = tGlo)).
  { unfold VerModel.callbacks in C. rewrite A2, <- A1. destruct (k =? GPS_EPH)%Z; [|destruct (k =? GAL_EPH)%Z; [|destruct (k =? GLO_EPH)%Z; [|discriminate]]]; injection C as <-; eexists; (split; [reflexivity|]); auto. }
  destruct H as (u & Hd & Hu). destruct data as [|(u', w) [|]]; try discriminate. cbn [map fst] in Hd. injection Hd as ->.
  inversion F as [|x y l l' Cp Fr E1 E2]; subst. exists y, l'. split; [reflexivity|]. cbn [fst snd] in Cp. unfold toe_of, logged_toe.
  assert (X : get "sec" (get "toe" y) = get "sec" (get "toe" w) /\ get "nsec" (get "toe" y) = get "nsec" (get "toe" w)).
  { destruct Hu as [ -> | [ -> | -> ]]; cbn in Cp; tauto. }
  destruct X as (-> & ->). reflexivity.
Qed.

Lemma lines_ok tr : (forall k t vs, In (k, t, vs) (messages tr) -> reasonable t /\ exists v w, vs = v :: w /\ reasonable (toe_of v)) ->
  exists out, lines tr = Some out /\ map (fun x => fst x) out = map (fun m => fst (fst m)) (messages tr) /\
  forall k, of_key k out = map (fun m => line_for (fst m) (toe_of (hd (Num 0) (snd m)))) (delivered k tr).
Proof.
  induction tr as [|[i t|k t vs] tr IH]; intros H; cbn [lines delivered messages].
  - exists []. split; [reflexivity|]. split; reflexivity.
  - apply IH. intros k u vs I. exact (H k u vs I).
  - destruct (H k t vs (or_introl eq_refl)) as (Rt & v & w & -> & Rv). rewrite (verify_line t v Rt Rv). cbn [bind].
    destruct IH as (out & -> & Ek & Eo); [intros k' u vs' I; exact (H k' u vs' (or_intror I))|]. cbn [bind]. eexists. split; [reflexivity|]. split.
    + cbn [map fst]. rewrite Ek. reflexivity.
    + intros k'. unfold of_key. cbn [filter fst]. specialize (Eo k'). unfold of_key in Eo. destruct (Z.eqb k k'); cbn [map snd fst hd]; rewrite Eo; reflexivity.
Qed.

Lemma in_by_key k t vs : forall l, In (k, t, vs) l -> In (t, vs) (by_key k l).
Proof.
  induction l as [|((k', t'), v') l IH]; intros I; [destruct I|]. cbn [by_key]. destruct I as [I|I].
  - injection I as -> -> ->. rewrite Z.eqb_refl. left. reflexivity.
  - destruct (k' =? k)%Z; [right|]; apply IH; exact I.
Qed.
Lemma Forall2_in_r {A B} (P : A -> B -> Prop) l l' y : Forall2 P l l' -> In y l' -> exists x, In x l /\ P x y.
Proof. induction 1 as [|a b l l' H F IH]; intros I; [destruct I|]. destruct I as [<-|I]; [exists a; split; [left; reflexivity|exact H]|]. destruct (IH I) as (x & Ix & Hx). exists x. split; [right; exact Ix|exact Hx]. Qed.
Lemma logged_log ops k r : In r (logged k ops) -> In (Log k (fst r) (snd r)) ops.
Proof.
  induction ops as [|[k'|k' t data] o IH]; cbn [logged]; intros I; [destruct I|right; exact (IH I)|].
  destruct (Z.eqb_spec k' k) as [->|N]; [|right; exact (IH I)]. destruct I as [<-|I]; [left; reflexivity|right; exact (IH I)].
Qed.

Lemma main_ok ops files order : wrun translation ops [] = Some files -> Permutation files order -> records_ok callbacks ops ->
  (forall k t data, In (Log k t data) ops -> callbacks k <> None -> reasonable t /\ reasonable (logged_toe data)) ->
  exists n, forall fuel, (n <= fuel)%nat -> exists out, main dual junk gps gal glo fuel (reopened dual junk order) = Some out /\
  (forall x, In x out -> callbacks (fst x) <> None) /\
  forall k, callbacks k <> None -> of_key k out = map (fun r => line_for (fst r) (logged_toe (snd r))) (logged k ops).
Proof.
  intros W P R Rs. destruct (replay_whole translation dual junk translation_ok dual_ok callbacks ops files order [] W P R) as (n & H). exists n. intros fuel L. specialize (H fuel L).
  unfold main. destruct (read dual junk fuel callbacks (reopened dual junk order) []) as [tr|tr| |tr] eqn:E; [|exfalso; exact (no_stop _ _ _ _ _ _ _ E)|exfalso; exact (H eq_refl)|destruct H].
  assert (Q : forall k t vs, In (k, t, vs) (messages tr) -> callbacks k <> None /\ exists r ts, In r (logged k ops) /\ callbacks k = Some ts /\ fits ts (snd r) /\ same_record r (t, vs)).
  { intros k t vs I. apply in_by_key in I. rewrite <- delivered_messages in I. destruct (H k) as (H0 & H1).
    destruct (callbacks k) as [ts|] eqn:C; [|rewrite H0 in I by reflexivity; destruct I]. split; [discriminate|].
    assert (Ne : Some ts <> None) by discriminate. destruct (Forall2_in_r _ _ _ _ (H1 Ne) I) as (r & Ir & S). exists r, ts. split; [exact Ir|]. split; [reflexivity|]. split; [|exact S].
    apply logged_log in Ir. exact (proj2 (R k (fst r) (snd r) ts Ir C)). }
  destruct (lines_ok tr) as (out & -> & Ek & Eo).
  { intros k t vs I. destruct (Q k t vs I) as (Nn & r & ts & Ir & C & Ft & S). destruct r as (t0, data). destruct (toe_copy k ts t0 data (t, vs) C Ft S) as (E1 & v & w & E2 & E3).
    cbn [fst snd] in E1, E2. subst t vs. apply logged_log in Ir. cbn [fst snd] in Ir. destruct (Rs k t0 data Ir Nn) as (A & B). split; [exact A|]. exists v, w. split; [reflexivity|]. rewrite E3. exact B. }
  exists out. split; [reflexivity|]. split.
  - intros x Ix. apply (in_map (fun x => fst x)) in Ix. rewrite Ek in Ix. apply in_map_iff in Ix as (((k, t), vs) & Ex & I). cbn [fst] in Ex. rewrite <- Ex. exact (proj1 (Q k t vs I)).
  - intros k Nn. rewrite Eo. destruct (H k) as (_ & H1). specialize (H1 Nn).
    assert (G : Forall (fun r => exists ts, callbacks k = Some ts /\ fits ts (snd r)) (logged k ops)).
    { apply Forall_forall. intros r Ir. apply logged_log in Ir. destruct (callbacks k) as [ts|] eqn:C; [|congruence]. exists ts. split; [reflexivity|]. exact (proj2 (R k (fst r) (snd r) ts Ir C)). }
    clear - H1 G. induction H1 as [|r m l l' S F IH]; [reflexivity|]. inversion G as [|? ? (ts & C & Ft) G']; subst. cbn [map]. rewrite (IH G'). f_equal.
    destruct r as (t0, data). destruct (toe_copy k ts t0 data m C Ft S) as (E1 & v & w & E2 & E3). rewrite E2. cbn [hd fst snd]. rewrite E1, E3. reflexivity.
Qed.
End Main.
