(** Proofs about a LogReader used for some time. *)
From Coq Require Import String ZArith NArith List Bool Lia Arith Permutation.
From Verif Require Import SerializeModel SerializeSpec SerializeProofs UtcTimeModel UtcTimeSpec UtcTimeProofs
  LogModel LogSpec LogProofs NextModel NextSpec.
Import ListNotations.
Local Open Scope list_scope.
Local Open Scope nat_scope.

Section Proofs.
Variable translation dual : list Z -> list Z -> list Z.
Variable junk : list Z.
Hypothesis translation_ok : forall r d, length (translation r d) = 3 /\ Forall (in_range FP64) (translation r d).
Hypothesis dual_ok : forall q t, length (dual q t) = 4 /\ Forall (in_range FP64) (dual q t).
Variable types : Z -> list (ty * value).
Notation records := (list (utc * list (ty * value))).
Notation same_record := (same_record translation dual).
Notation get_record := (get_record dual junk).
Notation loop_on := (loop_on dual junk).

Lemma loop_on_loop cbs : forall fuel l ms tr, fst (loop_on fuel cbs l ms tr) = loop dual junk fuel cbs l ms tr.
Proof.
  induction fuel as [|f IH]; intros l ms tr; cbn [NextModel.loop_on loop]; [reflexivity|].
  destruct (scan 0 l MAX_TIME None) as (m, [i|]); [|reflexivity]. destruct (eq m MAX_TIME); [reflexivity|].
  destruct (maintain 0 ms m tr) as [((ms', tr'), [|])|]; try reflexivity.
  destruct (nth_error l i) as [s|]; [|reflexivity]. destruct (cbs (key s)) as [ts|]; [|apply IH].
  destruct (LogModel.get_record dual junk ts s) as (vs, s'). apply IH.
Qed.

(** ** What a stream still holds *)
Definition ok_rec (ts : list (ty * value)) (r : utc * list (ty * value)) : Prop := stamp_ok (fst r) /\ fits ts (snd r).
Definition holds (s : stream) (rs : records) : Prop :=
  match rs with
  | [] => eof (file s) = true /\ next s = MAX_TIME
  | r :: rs' => next s = fst r /\ file s = mkStream (log_all translation (snd r) ++ bytes_of translation rs') false
  end.
Lemma read_none mk k nx : holds (readStamp dual junk (mkS mk k (mkStream [] false) nx)) [].
Proof. split; reflexivity. Qed.
Lemma stamp_holds mk k ts rs nx : Forall (ok_rec ts) rs -> holds (readStamp dual junk (mkS mk k (mkStream (bytes_of translation rs) false) nx)) rs.
Proof.
  intros F. destruct rs as [|r rs]; [apply read_none|]. inversion F as [|? ? Fr F']; subst. unfold bytes_of. cbn [flat_map]. rewrite <- app_assoc.
  rewrite (readStamp_full translation dual junk translation_ok dual_ok) by exact (proj1 Fr). split; reflexivity.
Qed.
Lemma readStamp_keys s : mapkey (readStamp dual junk s) = mapkey s /\ key (readStamp dual junk s) = key s.
Proof.
  unfold readStamp. destruct (des dual junk (Prim INT64) (Num (sec (next s))) (file s)) as (a, f1).
  destruct (des dual junk (Prim INT64) (Num (nsec (next s))) f1) as (b, f2). split; reflexivity.
Qed.
Lemma get_holds ts s r rs vs s' : Forall (ok_rec ts) (r :: rs) -> holds s (r :: rs) -> get_record ts s = (vs, s') ->
  same_record r (next s, vs) /\ holds s' rs.
Proof.
  intros F (Hn & Hf) E. inversion F as [|? ? Fr F']; subst. unfold LogModel.get_record in E. rewrite Hf in E.
  destruct (read_record translation dual junk translation_ok dual_ok ts (snd r) (bytes_of translation rs) (proj2 Fr)) as (v & Ev & C).
  rewrite Ev in E. injection E as <- <-. split; [split; [exact Hn|exact C]|]. apply (stamp_holds _ _ ts). exact F'.
Qed.
Lemma readStamp_end s : eof (file s) = true -> holds (readStamp dual junk s) [].
Proof.
  intros E. unfold readStamp. cbn [des]. unfold read_bytes at 1. rewrite E. unfold read_bytes. rewrite E. cbn [file next eof]. rewrite E. split; [exact E|reflexivity].
Qed.
Lemma get_end ts s vs s' : holds s [] -> get_record ts s = (vs, s') -> holds s' [].
Proof.
  intros (He & Hn) E. unfold LogModel.get_record in E. pose proof (read_all_eof dual junk ts (file s) He) as X.
  destruct (read_all dual junk ts (file s)) as (v, f). injection E as <- <-. apply readStamp_end. exact X.
Qed.

(** ** The streams of a reader *)
Definition inv (l : list stream) (R : Z -> records) : Prop :=
  NoDup (map key l) /\ Forall (fun s => mapkey s = key s /\ holds s (R (key s)) /\ Forall (ok_rec (types (key s))) (R (key s))) l.
Definition upd (R : Z -> records) (k : Z) (rs : records) : Z -> records := fun k' => if (k' =? k)%Z then rs else R k'.
Definition amount (l : list stream) (R : Z -> records) : nat := list_sum (map (fun s => length (R (key s))) l).

Lemma replace_keys : forall i (s s' : stream) l, nth_error l i = Some s -> key s' = key s -> map key (replace i s' l) = map key l.
Proof.
  induction i as [|i IH]; intros s s' [|x l] N K; cbn [nth_error] in N; try discriminate; cbn [replace map].
  - injection N as <-. rewrite K. reflexivity.
  - rewrite (IH s) by assumption. reflexivity.
Qed.
Lemma inv_replace : forall l i s s' R rs, inv l R -> nth_error l i = Some s -> key s' = key s -> mapkey s' = mapkey s ->
  holds s' rs -> Forall (ok_rec (types (key s))) rs -> inv (replace i s' l) (upd R (key s) rs).
Proof.
  intros l i s s' R rs (Nd & F) N K M H Fr. split; [rewrite (replace_keys i s) by assumption; exact Nd|].
  assert (G : forall l i, NoDup (map key l) -> Forall (fun s => mapkey s = key s /\ holds s (R (key s)) /\ Forall (ok_rec (types (key s))) (R (key s))) l ->
    nth_error l i = Some s -> Forall (fun x => mapkey x = key x /\ holds x (upd R (key s) rs (key x)) /\ Forall (ok_rec (types (key x))) (upd R (key s) rs (key x))) (replace i s' l)).
  { clear l i Nd F N. intros l. induction l as [|x l IH]; intros [|i] Nd F N; cbn [nth_error] in N; try discriminate; cbn [replace].
    - injection N as ->. inversion Nd as [|? ? Ni Nd']; subst. inversion F as [|? ? Fs F']; subst. constructor.
      + rewrite K, M. unfold upd. rewrite Z.eqb_refl. split; [exact (proj1 Fs)|split; assumption].
      + apply Forall_forall. intros x I. rewrite Forall_forall in F'. specialize (F' x I). unfold upd.
        destruct (Z.eqb_spec (key x) (key s)) as [E|E]; [exfalso; apply Ni; rewrite <- E; apply in_map; exact I|exact F'].
    - inversion Nd as [|? ? Ni Nd']; subst. inversion F as [|? ? Fs F']; subst. constructor; [|apply IH; assumption]. unfold upd.
      destruct (Z.eqb_spec (key x) (key s)) as [E|E]; [|exact Fs]. exfalso. apply Ni. rewrite E. apply in_map. apply nth_error_In in N. exact N. }
  apply G; assumption.
Qed.
Lemma amount_replace l i s s' R r rs : NoDup (map key l) -> nth_error l i = Some s -> key s' = key s -> R (key s) = r :: rs ->
  amount l R = S (amount (replace i s' l) (upd R (key s) rs)).
Proof.
  intros Nd N K E.
  assert (G : forall l, ~ In (key s) (map key l) -> amount l (upd R (key s) rs) = amount l R).
  { clear - l. intros l' Ni. unfold amount. f_equal. apply map_ext_in. intros x I. unfold upd.
    destruct (Z.eqb_spec (key x) (key s)) as [X|X]; [|reflexivity]. exfalso. apply Ni. rewrite <- X. apply in_map. exact I. }
  revert i Nd N. induction l as [|x l IH]; intros [|i] Nd N; cbn [nth_error] in N; try discriminate; inversion Nd as [|? ? Ni Nd']; subst; cbn [replace].
  - injection N as ->. specialize (G l Ni). unfold amount in *. cbn [map list_sum fold_right]. rewrite K. unfold list_sum in *. rewrite G. unfold upd at 1.
    rewrite Z.eqb_refl, E. reflexivity.
  - specialize (IH i Nd' N). unfold amount in *. cbn [map list_sum fold_right]. unfold list_sum in *. rewrite IH. unfold upd at 2.
    destruct (Z.eqb_spec (key x) (key s)) as [X|X]; [|lia]. exfalso. apply Ni. rewrite X. apply in_map. apply nth_error_In in N. exact N.
Qed.

(** [R] to [R'] by giving out [d k] for each key *)
Definition moved (R R' : Z -> records) (d : Z -> list (utc * list value)) : Prop :=
  forall k, exists taken, R k = taken ++ R' k /\ Forall (fun r => stamp_ok (fst r)) taken /\ Forall2 same_record taken (d k).
Lemma delivered_app k a b : delivered k (a ++ b) = delivered k a ++ delivered k b.
Proof. induction a as [|[i t|k' t v] a IH]; cbn [app delivered]; [reflexivity|exact IH|]. rewrite IH. destruct (k' =? k)%Z; reflexivity. Qed.
Lemma maintain_delivered ms i t tr ms' tr' ok k : maintain i ms t tr = Some (ms', tr', ok) -> delivered k tr' = delivered k tr.
Proof. intros E. rewrite !delivered_messages, (maintain_messages _ _ _ _ _ _ _ E). reflexivity. Qed.
Lemma moved_take R R1 k r rs m d : R k = r :: rs -> stamp_ok (fst r) -> same_record r m -> moved (upd R k rs) R1 d ->
  moved R R1 (fun k' => (if (k =? k')%Z then [m] else []) ++ d k').
Proof.
  intros E O S M k'. destruct (M k') as (tk & E' & Fs & F). unfold upd in E'. rewrite Z.eqb_sym. destruct (Z.eqb_spec k' k) as [->|N].
  - exists (r :: tk). split; [rewrite E, E'; reflexivity|]. split; constructor; assumption.
  - exists tk. split; [assumption|]. split; assumption.
Qed.

Lemma loop_moves cbs : forall fuel l R ms tr, inv l R -> (forall s, In s l -> cbs (key s) = Some (types (key s))) ->
  match loop_on fuel cbs l ms tr with
  | (Finished tr', l') => exists R' d, inv l' R' /\ map key l' = map key l /\ moved R R' d /\ (forall k, delivered k tr' = delivered k tr ++ d k) /\
      (forall s, In s l' -> R' (key s) = [])
  | (Stopped tr', l') => exists R' d, inv l' R' /\ map key l' = map key l /\ moved R R' d /\ (forall k, delivered k tr' = delivered k tr ++ d k) /\ ms <> []
  | (Undefined, _) => ms <> []
  | (OutOfFuel _, _) => fuel <= amount l R
  end.
Proof.
  induction fuel as [|f IH]; intros l R ms tr I C; cbn [NextModel.loop_on]; [lia|].
  assert (Stay : moved R R (fun _ => [])) by (intros k; exists []; split; [reflexivity|split; constructor]).
  pose proof I as (Nd & F). rewrite Forall_forall in F.
  destruct (scan 0 l MAX_TIME None) as (m, b) eqn:Sc.
  destruct (scan_ok _ _ _ _ _ _ Sc) as [(-> & -> & Fm)|(j & s & -> & Nt & Ns & T & Fm)].
  { exists R, (fun _ => []). split; [exact I|]. split; [reflexivity|]. split; [exact Stay|]. split; [intros k; rewrite app_nil_r; reflexivity|].
    intros s Is. destruct (F s Is) as (_ & H & Fr). rewrite Forall_forall in Fm. specialize (Fm s Is). destruct (R (key s)) as [|r rs]; [reflexivity|]. exfalso.
    apply Fm. rewrite (proj1 H). apply lt_tlt. apply stamp_before_max. inversion Fr as [|? ? Fr1 _]; subst. exact (proj1 Fr1). }
  cbn [Nat.add].
  assert (Ne : eq m MAX_TIME = false).
  { unfold eq. unfold tlt in T. destruct (Z.eqb_spec (sec m) (sec MAX_TIME)); [|reflexivity]. destruct (Z.eqb_spec (nsec m) (nsec MAX_TIME)); [|reflexivity]. lia. }
  rewrite Ne. destruct (maintain 0 ms m tr) as [((ms', tr'), [|])|] eqn:Mt.
  2:{ exists R, (fun _ => []). split; [exact I|]. split; [reflexivity|]. split; [exact Stay|].
      split; [intros k; rewrite app_nil_r; exact (maintain_delivered _ _ _ _ _ _ _ k Mt)|]. intros ->. cbn in Mt. discriminate. }
  2:{ intros ->. cbn in Mt. discriminate. }
  rewrite Nt. pose proof (nth_error_In _ _ Nt) as Is. rewrite (C s Is). destruct (get_record (types (key s)) s) as (vs, s') eqn:G.
  destruct (F s Is) as (Ms & H & Fr). destruct (get_keys _ _ _ _ _ _ G) as (Gm & Gk).
  destruct (R (key s)) as [|r rs] eqn:E.
  { exfalso. unfold tlt in T. rewrite <- Ns, (proj2 H) in T. lia. }
  destruct (get_holds _ _ _ _ _ _ Fr H G) as (Sr & H'). inversion Fr as [|? ? Fr1 Fr']; subst.
  assert (I' : inv (replace j s' l) (upd R (key s) rs)) by (eapply inv_replace; eassumption).
  pose proof (replace_keys j s s' l Nt Gk) as Ks.
  specialize (IH (replace j s' l) (upd R (key s) rs) ms' (tr' ++ [Msg (key s) (next s) vs]) I').
  assert (C' : forall x, In x (replace j s' l) -> cbs (key x) = Some (types (key x))).
  { intros x Ix. apply (in_map key) in Ix. rewrite Ks in Ix. apply in_map_iff in Ix as (y & Ey & Iy). rewrite <- Ey. exact (C y Iy). }
  specialize (IH C'). destruct (loop_on f cbs (replace j s' l) ms' (tr' ++ [Msg (key s) (next s) vs])) as ([t1|t1| |t1], l1).
  - destruct IH as (R1 & d & I1 & K1 & M1 & D1 & E1). exists R1, (fun k => (if (key s =? k)%Z then [(next s, vs)] else []) ++ d k).
    split; [exact I1|]. split; [congruence|]. split; [exact (moved_take _ _ _ _ _ _ _ E (proj1 Fr1) Sr M1)|]. split; [|exact E1].
    intros k. rewrite D1, delivered_app, (maintain_delivered _ _ _ _ _ _ _ k Mt). cbn [delivered]. rewrite <- app_assoc. reflexivity.
  - destruct IH as (R1 & d & I1 & K1 & M1 & D1 & Nm). exists R1, (fun k => (if (key s =? k)%Z then [(next s, vs)] else []) ++ d k).
    split; [exact I1|]. split; [congruence|]. split; [exact (moved_take _ _ _ _ _ _ _ E (proj1 Fr1) Sr M1)|].
    split; [|intros ->; cbn in Mt; injection Mt as <- <-; apply Nm; reflexivity].
    intros k. rewrite D1, delivered_app, (maintain_delivered _ _ _ _ _ _ _ k Mt). cbn [delivered]. rewrite <- app_assoc. reflexivity.
  - intros ->. cbn in Mt. injection Mt as <- <-. apply IH. reflexivity.
  - rewrite (amount_replace l j s s' R r rs Nd Nt Gk E). lia.
Qed.

(** ** A session *)
Notation do_call := (do_call dual junk types).
Notation do_calls := (do_calls dual junk types).
(** [R0]: the records of each stream at the beginning *)
Definition so_far (R0 R : Z -> records) (s : session) : Prop :=
  inv (s_streams s) R /\ forall k, exists taken, R0 k = taken ++ R k /\ Forall (fun r => stamp_ok (fst r)) taken /\ Forall2 same_record taken (given k (s_trace s)).
Lemma record_ok r m : stamp_ok (fst r) -> same_record r m -> is_record m = true.
Proof.
  intros ((N1 & N2) & L) (E & _). unfold is_record. rewrite E. apply Z.ltb_lt. unfold instant. cbn [sec nsec]. lia.
Qed.
Lemma records_filter tk d : Forall (fun r => stamp_ok (fst r)) tk -> Forall2 same_record tk d -> filter is_record d = d.
Proof.
  intros F S. induction S as [|r m tk d Sr S IH]; [reflexivity|]. inversion F; subst. cbn [filter]. rewrite (record_ok r m) by assumption. rewrite IH by assumption. reflexivity.
Qed.
Lemma given_app k a b : given k (a ++ b) = given k a ++ given k b.
Proof. unfold given. rewrite delivered_app. apply filter_app. Qed.
Lemma has_in k l : has k l = true <-> In k l.
Proof. unfold has. rewrite existsb_exists. split; [intros (x & I & E); apply Z.eqb_eq in E; subst; exact I|intros I; exists k; split; [exact I|apply Z.eqb_refl]]. Qed.
Lemma at_key_ok k : forall l i x, at_key k l = Some (i, x) -> nth_error l i = Some x /\ mapkey x = k.
Proof.
  induction l as [|s l IH]; intros i x E; cbn [at_key] in E; [discriminate|]. destruct (Z.eqb_spec (mapkey s) k) as [K|K].
  - injection E as <- <-. split; [reflexivity|exact K].
  - destruct (at_key k l) as [(j, y)|] eqn:A; [|discriminate]. injection E as <- <-. apply IH. reflexivity.
Qed.
Lemma at_key_some k l : In k (map mapkey l) -> exists i x, at_key k l = Some (i, x).
Proof.
  induction l as [|s l IH]; cbn [map]; intros I; [destruct I|]. cbn [at_key]. destruct (Z.eqb_spec (mapkey s) k) as [K|K]; [eauto|].
  destruct I as [I|I]; [contradiction|]. destruct (IH I) as (i & x & ->). eauto.
Qed.
Lemma inv_filter f l R : inv l R -> inv (filter f l) R.
Proof.
  intros (Nd & F). split.
  - clear F. induction l as [|s l IH]; [constructor|]. inversion Nd as [|? ? Ni Nd']; subst. cbn [filter]. destruct (f s); [|apply IH; exact Nd'].
    cbn [map]. constructor; [|apply IH; exact Nd']. intros I. apply Ni. apply in_map_iff in I as (x & E & I). apply filter_In in I as (I & _). rewrite <- E. apply in_map. exact I.
  - apply Forall_forall. intros x I. apply filter_In in I as (I & _). rewrite Forall_forall in F. exact (F x I).
Qed.
Lemma inv_mapkeys l R : inv l R -> map mapkey l = map key l.
Proof. intros (_ & F). rewrite Forall_forall in F. apply map_ext_in. intros x I. exact (proj1 (F x I)). Qed.
Lemma amount_filter f l R : amount (filter f l) R <= amount l R.
Proof. unfold amount. induction l as [|s l IH]; [cbn; lia|]. cbn [filter]. destruct (f s); cbn [map list_sum fold_right]; unfold list_sum in *; lia. Qed.
Lemma amount_keys l R : amount l R = list_sum (map (fun k => length (R k)) (map key l)).
Proof. unfold amount. rewrite map_map. reflexivity. Qed.
Lemma amount_le l l' R R' : map key l' = map key l -> (forall k, length (R' k) <= length (R k)) -> amount l' R' <= amount l R.
Proof.
  intros E L. rewrite !amount_keys, E. clear E. induction (map key l) as [|k ks IH]; [cbn; lia|]. cbn [map]. unfold list_sum in *. cbn [fold_right]. specialize (L k). lia.
Qed.
Lemma read_callbacks s : forall x, In x (filter (fun x => has (mapkey x) (s_cbs s)) (s_streams s)) -> mapkey x = key x ->
  (if has (key x) (s_cbs s) then Some (types (key x)) else None) = Some (types (key x)).
Proof. intros x I E. apply filter_In in I as (_ & I). rewrite E in I. rewrite I. reflexivity. Qed.

(** one call *)
Lemma call_ok fuel c s R0 R : so_far R0 R s ->
  match do_call fuel c s with
  | Ok s' => exists R', so_far R0 R' s' /\ (forall k, exists tk, R k = tk ++ R' k) /\
      (forall k, In k (map mapkey (s_streams s)) -> (is_read c = true -> In k (s_cbs s)) -> In k (map mapkey (s_streams s'))) /\
      (forall k, In k (s_cbs s) -> In k (s_cbs s')) /\ amount (s_streams s') R' <= amount (s_streams s) R /\
      (is_read c = true -> c = Read [] \/ s_end s' = true -> forall k, In k (map mapkey (s_streams s')) -> R' k = [])
  | Ended => exists k, c = SetCallback k /\ In k (s_cbs s)
  | Thrown => exists k, c = GetNext k /\ ~ In k (map mapkey (s_streams s))
  | Overflow => exists ms, c = Read ms /\ ms <> []
  | More => fuel <= amount (s_streams s) R
  end.
Proof.
  intros (I & P). destruct c as [k|k|ms]; cbn [NextModel.do_call].
  - destruct (has k (s_cbs s)) eqn:E.
    + exists k. split; [reflexivity|]. apply has_in. exact E.
    + exists R. split; [split; [exact I|exact P]|]. split; [intros k'; exists []; reflexivity|]. cbn [s_streams s_cbs]. split; [auto|]. split; [intros; right; assumption|]. split; [lia|].
      intros X. discriminate.
  - destruct (at_key k (s_streams s)) as [(i, x)|] eqn:A.
    2:{ exists k. split; [reflexivity|]. intros X. destruct (at_key_some _ _ X) as (i & x & Y). congruence. }
    destruct (at_key_ok _ _ _ _ A) as (Nt & Mk). destruct (get_record (types k) x) as (vs, x') eqn:G.
    pose proof (nth_error_In _ _ Nt) as Ix. pose proof I as (Nd & F). rewrite Forall_forall in F. destruct (F x Ix) as (Ek & H & Fr).
    rewrite Mk in Ek. subst k. destruct (get_keys _ _ _ _ _ _ G) as (Gm & Gk). rewrite Ek in *.
    assert (Mono : forall k, In k (map mapkey (s_streams s)) -> In k (map mapkey (replace i x' (s_streams s)))).
    { intros k. intros X. clear - X Nt Gm Ek. revert i Nt X. induction (s_streams s) as [|y l IH]; intros [|i] Nt X; cbn [nth_error] in Nt; try discriminate; cbn [map replace] in *.
      - injection Nt as ->. rewrite Gm, <- Ek. exact X.
      - destruct X as [X|X]; [left; exact X|right; apply (IH i); assumption]. }
    destruct (R (key x)) as [|r rs] eqn:E.
    + pose proof (get_end _ _ _ _ H G) as H'. exists (upd R (key x) []). split; [split|split; [|split; [|split; [|split]]]].
      * apply inv_replace with (s := x); try assumption; try congruence; constructor.
      * intros k. destruct (P k) as (tk & Et & Fs & S). exists tk. split.
        { unfold upd. destruct (Z.eqb_spec k (key x)) as [->|]; [rewrite <- E|]; exact Et. }
        split; [exact Fs|]. cbn [s_trace]. rewrite given_app. unfold given at 2. cbn [delivered].
        replace (filter is_record (if (key x =? k)%Z then [(next x, vs)] else [])) with (@nil (utc * list value)).
        2:{ destruct (key x =? k)%Z; [|reflexivity]. cbn [filter]. unfold is_record. cbn [fst]. rewrite (proj2 H). reflexivity. }
        rewrite app_nil_r. exact S.
      * intros k. exists []. unfold upd. cbn [app]. destruct (Z.eqb_spec k (key x)) as [->|]; [exact E|reflexivity].
      * cbn [s_streams]. intros k X _. apply Mono. exact X.
      * cbn [s_cbs]. auto.
      * cbn [s_streams]. apply amount_le; [apply (replace_keys i x); assumption|]. intros k. unfold upd. destruct (Z.eqb_spec k (key x)) as [->|]; [rewrite E; cbn [List.length]; lia|lia].
      * intros X. discriminate.
    + destruct (get_holds _ _ _ _ _ _ Fr H G) as (Sr & H'). inversion Fr as [|? ? Fr1 Fr']; subst. exists (upd R (key x) rs). split; [split|split; [|split; [|split; [|split]]]].
      * apply inv_replace with (s := x); try assumption. congruence.
      * intros k. destruct (P k) as (tk & Et & Fs & S). cbn [s_trace]. rewrite given_app. unfold given at 2. cbn [delivered]. unfold upd.
        rewrite (Z.eqb_sym (key x) k). destruct (Z.eqb_spec k (key x)) as [->|N].
        { exists (tk ++ [r]). split; [rewrite Et, E, <- app_assoc; reflexivity|]. split; [apply Forall_app; split; [exact Fs|constructor; [exact (proj1 Fr1)|constructor]]|].
          cbn [filter]. rewrite (record_ok r) by (try exact (proj1 Fr1); exact Sr). apply Forall2_app; [exact S|constructor; [exact Sr|constructor]]. }
        { exists tk. split; [exact Et|]. split; [exact Fs|]. cbn [filter]. rewrite app_nil_r. exact S. }
      * intros k. unfold upd. destruct (Z.eqb_spec k (key x)) as [->|]; [exists [r]; exact E|exists []; reflexivity].
      * cbn [s_streams]. intros k X _. apply Mono. exact X.
      * cbn [s_cbs]. auto.
      * cbn [s_streams]. apply amount_le; [apply (replace_keys i x); assumption|]. intros k. unfold upd. destruct (Z.eqb_spec k (key x)) as [->|]; [rewrite E; cbn [List.length]; lia|lia].
      * intros X. discriminate.
  - set (l := filter (fun x => has (mapkey x) (s_cbs s)) (s_streams s)).
    set (cbs := fun k => if has k (s_cbs s) then Some (types k) else None).
    assert (Il : inv l R) by (apply inv_filter; exact I).
    assert (C : forall x, In x l -> cbs (key x) = Some (types (key x))).
    { intros x Ix. apply read_callbacks; [exact Ix|]. destruct Il as (_ & F). rewrite Forall_forall in F. exact (proj1 (F x Ix)). }
    pose proof (loop_moves cbs fuel l R ms [] Il C) as L.
    assert (Kl : forall k, In k (map mapkey (s_streams s)) -> In k (s_cbs s) -> In k (map mapkey l)).
    { intros k X Y. apply in_map_iff in X as (x & <- & X). apply in_map. apply filter_In. split; [exact X|]. apply has_in. exact Y. }
    assert (Give : forall tr' R' d, moved R R' d -> (forall k, delivered k tr' = delivered k [] ++ d k) ->
      forall k, exists taken, R0 k = taken ++ R' k /\ Forall (fun r => stamp_ok (fst r)) taken /\ Forall2 same_record taken (given k (s_trace s ++ tr'))).
    { intros tr' R' d M D k. destruct (P k) as (tk & Et & Fs & S). destruct (M k) as (t2 & E2 & F2 & S2). exists (tk ++ t2).
      split; [rewrite Et, E2, app_assoc; reflexivity|].
      split; [apply Forall_app; split; assumption|]. rewrite given_app. unfold given at 2. rewrite D. cbn [delivered app]. rewrite (records_filter t2) by assumption.
      apply Forall2_app; assumption. }
    destruct (loop_on fuel cbs l ms []) as ([t1|t1| |t1], l1).
    + destruct L as (R1 & d & I1 & K1 & M1 & D1 & E1). exists R1. cbn [s_streams s_cbs s_trace s_end]. split; [split; [exact I1|exact (Give _ _ _ M1 D1)]|].
      split; [intros k; destruct (M1 k) as (tk & X & _); exists tk; exact X|]. rewrite (inv_mapkeys _ _ I1), K1.
      split; [intros k X Y; rewrite <- (inv_mapkeys _ _ Il); apply Kl; [exact X|exact (Y eq_refl)]|]. split; [auto|].
      split; [apply Nat.le_trans with (amount l R); [|apply amount_filter]; apply amount_le; [exact K1|]; intros k; destruct (M1 k) as (tk & X & _); rewrite X, app_length; lia|].
      intros _ _ k X. rewrite <- K1 in X. apply in_map_iff in X as (x & <- & X). exact (E1 x X).
    + destruct L as (R1 & d & I1 & K1 & M1 & D1 & Nm). exists R1. cbn [s_streams s_cbs s_trace s_end]. split; [split; [exact I1|exact (Give _ _ _ M1 D1)]|].
      split; [intros k; destruct (M1 k) as (tk & X & _); exists tk; exact X|]. rewrite (inv_mapkeys _ _ I1), K1.
      split; [intros k X Y; rewrite <- (inv_mapkeys _ _ Il); apply Kl; [exact X|exact (Y eq_refl)]|]. split; [auto|].
      split; [apply Nat.le_trans with (amount l R); [|apply amount_filter]; apply amount_le; [exact K1|]; intros k; destruct (M1 k) as (tk & X & _); rewrite X, app_length; lia|].
      intros _ [X|X]; [injection X as X; contradiction|discriminate].
    + exists ms. split; [reflexivity|exact L].
    + pose proof (amount_filter (fun x => has (mapkey x) (s_cbs s)) (s_streams s) R). fold l in H. lia.
Qed.

(** ** Any calls *)
(** After the calls [h]: who has a callback, who still has a stream. *)
Definition dropped (k : Z) (h : list call) : Prop := exists a ms b, h = a ++ Read ms :: b /\ ~ In (SetCallback k) a.
Definition known (K : list Z) (h : list call) (s : session) : Prop :=
  (forall k, In k (s_cbs s) <-> In (SetCallback k) h) /\ (forall k, In k K -> In k (map mapkey (s_streams s)) \/ dropped k h).
Lemma dropped_app k h g : dropped k h -> dropped k (h ++ g).
Proof. intros (a & ms & b & -> & N). exists a, ms, (b ++ g). rewrite <- app_assoc. split; [reflexivity|exact N]. Qed.
Lemma call_cbs fuel c s s' : do_call fuel c s = Ok s' -> forall k, In k (s_cbs s') <-> In k (s_cbs s) \/ c = SetCallback k.
Proof.
  intros E k. destruct c as [j|j|ms]; cbn [NextModel.do_call] in E.
  - destruct (has j (s_cbs s)); [discriminate|]. injection E as <-. cbn [s_cbs In]. split; [intros [->|X]; auto|intros [X|X]; [auto|injection X as ->; auto]].
  - destruct (at_key j (s_streams s)) as [(i, x)|]; [|discriminate]. destruct (get_record (types j) x) as (vs, x'). injection E as <-. cbn [s_cbs]. intuition congruence.
  - destruct (NextModel.loop_on _ _ _ _ _ _ _) as ([t1|t1| |t1], l1); try discriminate; injection E as <-; cbn [s_cbs]; intuition congruence.
Qed.
Lemma known_step fuel K h c s s' R0 R : so_far R0 R s -> known K h s -> do_call fuel c s = Ok s' -> known K (h ++ [c]) s'.
Proof.
  intros SF (Kc & Ks) E. split.
  - intros k. rewrite (call_cbs _ _ _ _ E), Kc, in_app_iff. cbn [In]. tauto.
  - intros k Ik. destruct (Ks k Ik) as [I|D]; [|right; apply dropped_app; exact D].
    pose proof (call_ok fuel c s R0 R SF) as X. rewrite E in X. destruct X as (R' & _ & _ & Keep & _). destruct c as [j|j|ms].
    + left. apply Keep; [exact I|]. intros X. discriminate.
    + left. apply Keep; [exact I|]. intros X. discriminate.
    + destruct (in_dec Z.eq_dec k (s_cbs s)) as [Ck|Ck]; [left; apply Keep; [exact I|intros _; exact Ck]|]. right. exists h, ms, []. split; [reflexivity|]. rewrite <- Kc. exact Ck.
Qed.
Lemma calls_ok fuel K R0 : forall cs h s R, so_far R0 R s -> known K h s ->
  match do_calls fuel cs s with
  | Ok s' => exists R', so_far R0 R' s' /\ known K (h ++ cs) s'
  | Ended => exists a k b, h ++ cs = a ++ SetCallback k :: b /\ In (SetCallback k) a
  | Thrown => exists a k b, h ++ cs = a ++ GetNext k :: b /\ (In k K -> dropped k a)
  | Overflow => exists ms, In (Read ms) cs /\ ms <> []
  | More => fuel <= amount (s_streams s) R
  end.
Proof.
  induction cs as [|c cs IH]; intros h s R SF Kn; cbn [NextModel.do_calls].
  - exists R. rewrite app_nil_r. split; assumption.
  - pose proof (call_ok fuel c s R0 R SF) as X. pose proof (known_step fuel K h c s) as Y. destruct (do_call fuel c s) as [s'| | | |].
    + destruct X as (R' & SF' & _ & _ & _ & Am & _). specialize (IH (h ++ [c]) s' R' SF' (Y s' R0 R SF Kn eq_refl)). rewrite <- app_assoc in IH. cbn [app] in IH.
      destruct (do_calls fuel cs s') as [s2| | | |]; try exact IH; [|lia]. destruct IH as (ms & I & N). exists ms. split; [right; exact I|exact N].
    + destruct X as (k & -> & I). exists h, k, cs. split; [reflexivity|]. apply (proj1 Kn). exact I.
    + destruct X as (k & -> & N). exists h, k, cs. split; [reflexivity|]. intros Ik. destruct (proj2 Kn k Ik) as [I|D]; [contradiction|exact D].
    + destruct X as (ms & -> & N). exists ms. split; [left; reflexivity|exact N].
    + exact X.
Qed.
Lemma do_calls_app fuel a : forall b s, do_calls fuel (a ++ b) s = match do_calls fuel a s with Ok s' => do_calls fuel b s' | x => x end.
Proof. induction a as [|c a IH]; intros b s; cbn [app NextModel.do_calls]; [reflexivity|]. destruct (do_call fuel c s); try reflexivity. apply IH. Qed.

Lemma calls_cbs fuel : forall cs s s' k, do_calls fuel cs s = Ok s' -> In k (s_cbs s) -> In k (s_cbs s').
Proof.
  induction cs as [|c cs IH]; intros s s' k E I; cbn [NextModel.do_calls] in E; [injection E as <-; exact I|]. destruct (do_call fuel c s) as [s1| | | |] eqn:D; try discriminate.
  apply (IH s1 s' k E). apply (call_cbs _ _ _ _ D). left. exact I.
Qed.
Lemma twice fuel a k b c s s' : do_calls fuel (a ++ SetCallback k :: b ++ SetCallback k :: c) s <> Ok s'.
Proof.
  rewrite do_calls_app. destruct (do_calls fuel a s) as [s1| | | |]; try discriminate. cbn [NextModel.do_calls]. destruct (do_call fuel (SetCallback k) s1) as [s2| | | |] eqn:D; try discriminate.
  rewrite do_calls_app. destruct (do_calls fuel b s2) as [s3| | | |] eqn:B; try discriminate. cbn [NextModel.do_calls NextModel.do_call].
  assert (I : In k (s_cbs s3)) by (apply (calls_cbs _ _ _ _ _ B); apply (call_cbs _ _ _ _ D); right; reflexivity). apply has_in in I. rewrite I. discriminate.
Qed.

(** ** From the files of a Logger *)
Section Files.
Variable ops : list wop.
Variable files order : list wstream.
Hypothesis Hw : wrun translation ops [] = Some files.
Hypothesis Ho : Permutation files order.
Hypothesis Hr : records_ok (fun k => Some (types k)) ops.
Let start := just_opened (reopened dual junk order).
Let R0 (k : Z) : records := logged k ops.
Lemma logged_in k r : In r (logged k ops) -> In (Log k (fst r) (snd r)) ops.
Proof.
  clear. induction ops as [|[k'|k' t data] o IH]; cbn [logged]; intros I; [destruct I|right; exact (IH I)|].
  destruct (Z.eqb_spec k' k) as [->|N]; [|right; exact (IH I)]. destruct I as [<-|I]; [left; reflexivity|right; exact (IH I)].
Qed.
Lemma logged_ok k : Forall (ok_rec (types k)) (logged k ops).
Proof. apply Forall_forall. intros r I. apply logged_in in I. exact (Hr k (fst r) (snd r) (types k) I eq_refl). Qed.
Lemma start_keys : map key (reopened dual junk order) = map w_key order.
Proof. unfold reopened. rewrite map_map. apply map_ext. intros f. unfold open_stream. rewrite (proj2 (readStamp_keys _)). reflexivity. Qed.
Lemma start_inv : inv (reopened dual junk order) R0.
Proof.
  destruct (wrun_ok translation dual junk translation_ok dual_ok _ _ Hw) as (Nd & F & _). split.
  - rewrite start_keys. apply (Permutation_NoDup (l := map w_key files)); [apply Permutation_map; exact Ho|exact Nd].
  - unfold reopened. apply Forall_forall. intros x I. apply in_map_iff in I as (f & <- & I). apply (Permutation_in f (Permutation_sym Ho)) in I.
    rewrite Forall_forall in F. destruct (F f I) as (B & _). unfold open_stream. rewrite B, (proj1 (readStamp_keys _)), (proj2 (readStamp_keys _)). cbn [mapkey key].
    split; [reflexivity|]. split; [|apply logged_ok]. unfold R0. apply (stamp_holds _ _ (types (w_key f))). apply logged_ok.
Qed.
Lemma start_so_far : so_far R0 R0 start.
Proof. split; [exact start_inv|]. intros k. exists []. split; [reflexivity|]. split; constructor. Qed.
Lemma start_known : known (map w_key files) [] start.
Proof.
  split; [intros k; cbn [In s_cbs]; reflexivity|]. intros k I. left. cbn [s_streams start just_opened]. rewrite (inv_mapkeys _ _ start_inv), start_keys.
  apply (Permutation_in k (Permutation_map w_key Ho)). exact I.
Qed.
Lemma start_amount : amount (s_streams start) R0 = total files ops.
Proof.
  cbn [s_streams start just_opened]. rewrite amount_keys, start_keys, map_map. unfold total, R0. clear - Ho. induction Ho as [|x a b P IH|x y l|a b c P1 IH1 P2 IH2]; unfold list_sum in *; cbn [map fold_right]; lia.
Qed.

Lemma calls_given fuel cs :
  match do_calls fuel cs start with
  | Ok s => forall k, length (given k (s_trace s)) <= length (logged k ops) /\
      Forall2 same_record (firstn (length (given k (s_trace s))) (logged k ops)) (given k (s_trace s))
  | Ended => exists a k b, cs = a ++ SetCallback k :: b /\ In (SetCallback k) a
  | Thrown => exists a k b, cs = a ++ GetNext k :: b /\
      (In k (map w_key files) -> exists a1 ms a2, a = a1 ++ Read ms :: a2 /\ ~ In (SetCallback k) a1)
  | Overflow => exists ms, In (Read ms) cs /\ ms <> []
  | More => fuel <= total files ops
  end.
Proof.
  pose proof (calls_ok fuel (map w_key files) R0 cs [] start R0 start_so_far start_known) as X. cbn [app] in X. rewrite start_amount in X.
  destruct (do_calls fuel cs start) as [s| | | |]; try exact X. destruct X as (R' & (_ & P) & _). intros k. destruct (P k) as (tk & E & _ & S). unfold R0 in E.
  pose proof (Forall2_len _ _ _ S) as L. rewrite E, app_length, <- L. split; [lia|]. rewrite firstn_app, Nat.sub_diag, firstn_all. cbn [firstn]. rewrite app_nil_r. exact S.
Qed.
Lemma calls_all fuel a k b ms s : forallb (fun c => negb (is_read c)) a = true ->
  do_calls fuel (a ++ SetCallback k :: b ++ [Read ms]) start = Ok s -> ms = [] \/ s_end s = true -> Forall2 same_record (logged k ops) (given k (s_trace s)).
Proof.
  intros Na E Es0. replace (a ++ SetCallback k :: b ++ [Read ms]) with ((a ++ SetCallback k :: b) ++ [Read ms]) in E by (rewrite <- app_assoc; reflexivity).
  rewrite do_calls_app in E. pose proof (calls_ok fuel (map w_key files) R0 (a ++ SetCallback k :: b) [] start R0 start_so_far start_known) as X. cbn [app] in X.
  destruct (do_calls fuel (a ++ SetCallback k :: b) start) as [s1| | | |]; try discriminate. destruct X as (R1 & SF & Kn). cbn [NextModel.do_calls] in E.
  pose proof (call_ok fuel (Read ms) s1 R0 R1 SF) as Y. destruct (do_call fuel (Read ms) s1) as [s2| | | |]; try discriminate. injection E as ->.
  destruct Y as (R2 & (_ & P) & _ & Keep & _ & _ & Done). destruct (P k) as (tk & E & _ & S). unfold R0 in E.
  assert (Es : Read ms = Read [] \/ s_end s = true) by (destruct Es0 as [->|Es0]; auto).
  destruct (wrun_ok translation dual junk translation_ok dual_ok _ _ Hw) as (_ & _ & Cover).
  assert (R2 k = [] \/ logged k ops = []) as [Z|Z].
  { destruct (logged k ops) as [|r rs] eqn:El; [right; reflexivity|]. left. apply (Done eq_refl Es). apply Keep.
    - assert (Ik : In k (map w_key files)) by (apply Cover; rewrite El; discriminate). destruct (proj2 Kn k Ik) as [I|(a1 & m1 & b1 & Eh & N)]; [exact I|]. exfalso.
      clear - Na Eh N. revert a1 Eh N. induction a as [|c a IH]; intros [|c1 a1] Eh N; cbn [app] in Eh; try discriminate.
      + injection Eh as <- _. apply N. left. reflexivity.
      + injection Eh as -> _. discriminate.
      + injection Eh as <- Eh. cbn [forallb] in Na. apply andb_prop in Na as (_ & Na). apply (IH Na a1 Eh). intros X. apply N. right. exact X.
    - intros _. apply (proj1 Kn). apply in_or_app. right. left. reflexivity. }
  - rewrite Z, app_nil_r in E. rewrite E. exact S.
  - rewrite Z in *. destruct tk; [|discriminate]. exact S.
Qed.

(** ** getNext alone *)
Lemma nth_skipn {A} (l : list A) : forall n, nth_error l n = match skipn n l with x :: _ => Some x | [] => None end.
Proof. induction l as [|x l IH]; intros [|n]; cbn [nth_error skipn]; try reflexivity. apply IH. Qed.
Lemma skipn_S {A} (l : list A) : forall n, skipn (S n) l = tl (skipn n l).
Proof. induction l as [|x l IH]; intros [|n]; cbn [skipn tl]; try reflexivity. rewrite <- IH. reflexivity. Qed.
Lemma gets_ok fuel : forall cs s, forallb is_get cs = true -> (forall k, In (GetNext k) cs -> In k (map key (s_streams s))) ->
  inv (s_streams s) (fun k => skipn (length (delivered k (s_trace s))) (R0 k)) -> (forall k, answers translation dual (R0 k) (delivered k (s_trace s))) ->
  exists s', do_calls fuel cs s = Ok s' /\ forall k, length (delivered k (s_trace s')) = length (delivered k (s_trace s)) + asked k cs /\
    answers translation dual (R0 k) (delivered k (s_trace s')).
Proof.
  induction cs as [|c cs IH]; intros s G Kn I An; cbn [NextModel.do_calls].
  - exists s. split; [reflexivity|]. intros k. split; [unfold asked; cbn [filter List.length]; lia|apply An].
  - cbn [forallb] in G. apply andb_prop in G as (Gc & G). destruct c as [j|j|ms]; try discriminate. cbn [NextModel.do_call].
    pose proof (Kn j (or_introl eq_refl)) as Ij. rewrite <- (inv_mapkeys _ _ I) in Ij. destruct (at_key_some _ _ Ij) as (i & x & A). rewrite A.
    destruct (at_key_ok _ _ _ _ A) as (Nt & Mk). destruct (get_record (types j) x) as (vs, x') eqn:Gr.
    pose proof (nth_error_In _ _ Nt) as Ix. pose proof I as (Nd & F). rewrite Forall_forall in F. destruct (F x Ix) as (Ek & H & Fr).
    destruct (get_keys _ _ _ _ _ _ Gr) as (Gm & Gk). assert (j = key x) by congruence. subst j. rewrite Ek in Gr |- *.
    set (n := length (delivered (key x) (s_trace s))) in *. set (rs := skipn n (R0 (key x))) in *.
    set (s1 := mkSession (replace i x' (s_streams s)) (s_cbs s) (s_trace s ++ [Msg (key x) (next x) vs]) (s_end s)).
    assert (Ex : match rs with r :: _ => same_record r (next x, vs) | [] => next x = MAX_TIME end /\ holds x' (tl rs) /\ Forall (ok_rec (types (key x))) (tl rs)).
    { destruct rs as [|r rs']; [split; [exact (proj2 H)|split; [exact (get_end _ _ _ _ H Gr)|constructor]]|].
      destruct (get_holds _ _ _ _ _ _ Fr H Gr) as (S & H'). split; [exact S|]. split; [exact H'|]. inversion Fr; assumption. }
    destruct Ex as (Ans & H' & Fr').
    assert (D1 : forall k, delivered k (s_trace s1) = delivered k (s_trace s) ++ if (key x =? k)%Z then [(next x, vs)] else []).
    { intros k. cbn [s_trace s1]. rewrite delivered_app. reflexivity. }
    destruct (IH s1 G) as (s' & E' & P').
    + intros k Ik. cbn [s_streams s1]. rewrite (replace_keys i x) by assumption. apply Kn. right. exact Ik.
    + pose proof (inv_replace _ _ _ x' _ (tl rs) I Nt Gk ltac:(congruence) H' Fr') as (N2 & F2). split; [exact N2|]. cbn [s_streams s1]. apply Forall_forall. intros y Iy.
      rewrite Forall_forall in F2. specialize (F2 y Iy). unfold upd in F2. rewrite D1. rewrite (Z.eqb_sym (key x)).
      destruct (Z.eqb_spec (key y) (key x)) as [Ey|Ey]; [|rewrite app_nil_r; exact F2]. rewrite Ey in *. rewrite app_length. cbn [List.length].
      replace (length (delivered (key x) (s_trace s)) + 1) with (S n) by (unfold n; lia). rewrite skipn_S. exact F2.
    + intros k m e. rewrite D1. destruct (Z.eqb_spec (key x) k) as [<-|Nk]; [|rewrite app_nil_r; apply An]. intros E.
      destruct (Nat.lt_ge_cases m n) as [Lt|Ge].
      * rewrite nth_error_app1 in E by exact Lt. exact (An _ _ _ E).
      * assert (m = n). { assert (Nn : nth_error (delivered (key x) (s_trace s) ++ [(next x, vs)]) m <> None) by congruence. apply nth_error_Some in Nn. rewrite app_length in Nn. cbn [List.length] in Nn. unfold n in *. lia. }
        subst m. rewrite nth_error_app2 in E by lia. unfold n in E at 1. rewrite Nat.sub_diag in E. cbn [nth_error] in E. injection E as <-.
        rewrite nth_skipn. fold rs. destruct rs; exact Ans.
    + exists s'. split; [exact E'|]. intros k. destruct (P' k) as (L & A'). split; [|exact A']. rewrite L, D1, app_length. unfold asked. cbn [filter].
      destruct (key x =? k)%Z; cbn [List.length]; lia.
Qed.
Lemma gets_answered fuel cs : forallb is_get cs = true -> (forall k, In (GetNext k) cs -> In k (map w_key files)) ->
  exists s, do_calls fuel cs start = Ok s /\ forall k, length (delivered k (s_trace s)) = asked k cs /\ answers translation dual (logged k ops) (delivered k (s_trace s)).
Proof.
  intros G Kn. destruct (gets_ok fuel cs start G) as (s & E & P).
  - intros k I. cbn [s_streams start just_opened]. rewrite start_keys. apply (Permutation_in k (Permutation_map w_key Ho)). apply Kn. exact I.
  - exact start_inv.
  - intros k i m E. cbn in E. destruct i; discriminate.
  - exists s. split; [exact E|]. intros k. exact (P k).
Qed.
End Files.
End Proofs.
