(** Proofs about the model of objects that look at memory: the memory is the numbers of
    the objects one after another, and each statement changes the numbers of one. *)
From Coq Require Import List Reals Arith Bool Lia.
From Verif Require Import ViewModel ViewSpec.
Import ListNotations.
Local Open Scope R_scope.

Definition cell_of (o : option R) : cell := match o with Some r => Val r | None => Raw end.
Definition spare (k : class) : memory := match k with Dual => raw4 ++ raw4 | _ => nil end.
Definition layout (v : value) : memory := map cell_of (snd v) ++ spare (fst v).
Definition own (k : class) : nat -> object := match k with Quaternion => own_q | Dual => own_d | Error => own_e end.
Fixpoint objs (n : nat) (vs : values) : list object :=
  match vs with nil => nil | v :: r => own (fst v) n :: objs (n + length (layout v)) r end.
Definition mem (vs : values) : memory := flat_map layout vs.
Definition base (vs : values) (x : nat) : nat := length (mem (firstn x vs)).
Definition wf (v : value) : Prop := length (snd v) = size (fst v).
Definition inv (s : machine) (vs : values) : Prop := fst s = mem vs /\ snd s = objs 0 vs /\ Forall wf vs.

Lemma skipn_twice {A} (i n : nat) : forall l : list A, skipn n (skipn i l) = skipn (i + n) l.
Proof. induction i as [|i IH]; intros l; [reflexivity|]. destruct l as [|a l]; [rewrite !skipn_nil; reflexivity|]. apply IH. Qed.
(** Reading and writing lists of cells *)
Lemma rd_skip n : forall m a b, rd (skipn a m) b n = rd m (a + b) n.
Proof.
  induction n as [|n IH]; intros m a b; [reflexivity|].
  cbn [rd]. rewrite IH, <- plus_n_Sm.
  replace (nth_error (skipn a m) b) with (nth_error m (a + b)); [reflexivity|].
  revert m; induction a as [|a IA]; intros m; [reflexivity|]. destruct m as [|c m]; [destruct b; reflexivity|]. apply IA.
Qed.
Lemma rd_cells n : forall l post, (n <= length l)%nat -> rd (map cell_of l ++ post) 0 n = all (firstn n l).
Proof.
  induction n as [|n IH]; intros l post H; [reflexivity|].
  destruct l as [|o l]; [cbn [length] in H; lia|]. cbn [length] in H.
  cbn [rd map app nth_error firstn all]. destruct o as [r|]; cbn [cell_of]; [|reflexivity].
  change 1%nat with (1 + 0)%nat. rewrite <- rd_skip. cbn [skipn]. rewrite IH by lia. reflexivity.
Qed.
Lemma rd_mid pre l post i n : (i + n <= length l)%nat -> rd (pre ++ map cell_of l ++ post) (length pre + i) n = all (slice i n l).
Proof.
  intros H. rewrite <- rd_skip. replace (skipn (length pre) (pre ++ map cell_of l ++ post)) with (map cell_of l ++ post) by (rewrite skipn_app, skipn_all, Nat.sub_diag; reflexivity).
  rewrite <- (Nat.add_0_r i), <- rd_skip, Nat.add_0_r.
  assert (E : skipn i (map cell_of l ++ post) = map cell_of (skipn i l) ++ post).
  { rewrite skipn_app, skipn_map, map_length. replace (i - length l)%nat with O by lia. reflexivity. }
  rewrite E. unfold slice. apply rd_cells. rewrite skipn_length. lia.
Qed.
Lemma put_mid pre c post r : c <> Gone -> put (pre ++ c :: post) (length pre) r = Some (pre ++ Val r :: post).
Proof.
  intros H. induction pre as [|d pre IH]; [destruct c; [congruence|reflexivity|reflexivity]|].
  cbn [app length put]. rewrite IH. destruct d; reflexivity.
Qed.
Lemma wr_mid w : forall pre old post, length old = length w -> Forall (fun c => c <> Gone) old ->
  wr (pre ++ old ++ post) (length pre) w = Some (pre ++ vals w ++ post).
Proof.
  induction w as [|r w IH]; intros pre old post L F; destruct old as [|c old]; try discriminate; [reflexivity|].
  cbn [wr app vals map]. inversion F; subst. rewrite put_mid by assumption.
  replace (pre ++ Val r :: old ++ post) with ((pre ++ [Val r]) ++ old ++ post) by (rewrite <- app_assoc; reflexivity).
  replace (S (length pre)) with (length (pre ++ [Val r])) by (rewrite app_length; cbn [length]; lia).
  rewrite IH by (cbn [length] in L; auto). rewrite <- app_assoc. reflexivity.
Qed.
Lemma cells_there l : Forall (fun c => c <> Gone) (map cell_of l).
Proof. apply Forall_forall. intros c H. apply in_map_iff in H. destruct H as (o & E & _). destruct o; subst; discriminate. Qed.
Lemma cells_some w : map cell_of (some w) = vals w.
Proof. unfold some, vals. rewrite map_map. reflexivity. Qed.
Lemma split3 {A} i n (l : list A) : (i + n <= length l)%nat -> l = firstn i l ++ slice i n l ++ skipn (i + n) l.
Proof.
  intros H. unfold slice. rewrite <- (firstn_skipn i l) at 1. f_equal.
  rewrite <- (firstn_skipn n (skipn i l)) at 1. f_equal. apply skipn_twice.
Qed.
Lemma slice_length {A} i n (l : list A) : (i + n <= length l)%nat -> length (slice i n l) = n.
Proof. intros H. unfold slice. rewrite firstn_length, skipn_length. lia. Qed.
Lemma splice_length {A} i (l w : list A) : (i + length w <= length l)%nat -> length (splice i l w) = length l.
Proof. intros H. unfold splice. rewrite !app_length, firstn_length, skipn_length. lia. Qed.
Lemma wr_in pre l post i w : (i + length w <= length l)%nat ->
  wr (pre ++ map cell_of l ++ post) (length pre + i) w = Some (pre ++ map cell_of (splice i l (some w)) ++ post).
Proof.
  intros H. rewrite (split3 i (length w) l) at 1 by assumption.
  rewrite !map_app. rewrite <- !app_assoc, (app_assoc pre).
  replace (length pre + i)%nat with (length (pre ++ map cell_of (firstn i l))) by (rewrite app_length, map_length, firstn_length; lia).
  rewrite wr_mid; [|rewrite map_length; apply slice_length; assumption|apply cells_there].
  f_equal. unfold splice. rewrite !map_app, cells_some. unfold some at 1. rewrite map_length, <- !app_assoc. reflexivity.
Qed.

(** Objects in the memory *)
Lemma mem_at vs x v : nth_error vs x = Some v -> mem vs = mem (firstn x vs) ++ layout v ++ mem (skipn (S x) vs).
Proof.
  revert x; induction vs as [|u vs IH]; intros x E; [destruct x; discriminate|].
  destruct x as [|x]; [inversion E; reflexivity|]. cbn [nth_error] in E.
  cbn [firstn skipn]. unfold mem in *. cbn [flat_map]. rewrite (IH x E) at 1. cbn [skipn]. rewrite <- app_assoc. reflexivity.
Qed.
Lemma mem_splice vs x v u : nth_error vs x = Some v -> mem (splice x vs [u]) = mem (firstn x vs) ++ layout u ++ mem (skipn (S x) vs).
Proof.
  intros _. unfold splice, mem. cbn [length]. rewrite Nat.add_1_r, !flat_map_app. cbn [flat_map]. rewrite app_nil_r. reflexivity.
Qed.
Lemma rd_at vs x k l i n : nth_error vs x = Some (k, l) -> (i + n <= length l)%nat -> rd (mem vs) (base vs x + i) n = all (slice i n l).
Proof. intros E H. rewrite (mem_at vs x _ E). unfold layout. cbn [fst snd]. rewrite <- app_assoc. apply rd_mid. assumption. Qed.
Lemma wr_at vs x k l i w : nth_error vs x = Some (k, l) -> (i + length w <= length l)%nat ->
  wr (mem vs) (base vs x + i) w = Some (mem (splice x vs [(k, splice i l (some w))])).
Proof.
  intros E H. rewrite (mem_splice vs x _ _ E), (mem_at vs x _ E). unfold layout. cbn [fst snd]. rewrite <- !app_assoc. apply wr_in. assumption.
Qed.
Lemma nth_objs vs : forall n x, nth_error (objs n vs) x = match nth_error vs x with Some v => Some (own (fst v) (n + base vs x)) | None => None end.
Proof.
  induction vs as [|v vs IH]; intros n x; [destruct x; reflexivity|].
  destruct x as [|x]; [cbn; rewrite Nat.add_0_r; reflexivity|].
  cbn [objs nth_error]. rewrite IH. destruct (nth_error vs x); [|reflexivity]. unfold base, mem. cbn [firstn flat_map]. rewrite app_length, Nat.add_assoc. reflexivity.
Qed.
Lemma objs_app vs w : forall n, objs n (vs ++ w) = objs n vs ++ objs (n + length (mem vs)) w.
Proof.
  induction vs as [|v vs IH]; intros n; [cbn; rewrite Nat.add_0_r; reflexivity|].
  cbn [app objs]. rewrite IH. unfold mem. cbn [flat_map]. rewrite app_length, Nat.add_assoc. reflexivity.
Qed.
Lemma layout_length v u : fst v = fst u -> wf v -> wf u -> length (layout v) = length (layout u).
Proof. unfold wf, layout. intros E A B. rewrite !app_length, !map_length, A, B, E. reflexivity. Qed.
Lemma objs_splice vs : forall n x v u, nth_error vs x = Some v -> fst u = fst v -> wf u -> wf v -> objs n (splice x vs [u]) = objs n vs.
Proof.
  induction vs as [|w vs IH]; intros n x v u E K A B; [destruct x; discriminate|].
  destruct x as [|x]; unfold splice; cbn [length firstn app skipn Nat.add].
  - inversion E; subst. cbn [objs]. rewrite K, (layout_length u v) by assumption. reflexivity.
  - cbn [objs]. f_equal. specialize (IH (n + length (layout w))%nat x v u E K A B). unfold splice in IH. cbn [length] in IH. exact IH.
Qed.
Lemma forall_splice vs x u : Forall wf vs -> wf u -> Forall wf (splice x vs [u]).
Proof.
  intros F H. unfold splice. apply Forall_app. split; [|apply Forall_app; split].
  - rewrite <- (firstn_skipn x vs) in F. apply Forall_app in F. apply F.
  - constructor; [assumption|constructor].
  - rewrite <- (firstn_skipn (x + length [u]) vs) in F. apply Forall_app in F. apply F.
Qed.
Lemma wf_at vs x v : Forall wf vs -> nth_error vs x = Some v -> wf v.
Proof. intros F E. apply nth_error_In in E. rewrite Forall_forall in F. apply F. assumption. Qed.
Lemma base_order vs x y v : nth_error vs x = Some v -> (x < y)%nat -> (base vs x + length (snd v) <= base vs y)%nat.
Proof.
  revert x y; induction vs as [|w vs IH]; intros x y E H; [destruct x; discriminate|].
  destruct y as [|y]; [lia|]. destruct x as [|x].
  - inversion E; subst. unfold base, mem. cbn [firstn flat_map length]. unfold layout at 1. rewrite !app_length, map_length. lia.
  - cbn [nth_error] in E. specialize (IH x y E). unfold base, mem in *. cbn [firstn flat_map]. rewrite !app_length. lia.
Qed.

(** The lookup of an object, in the machine and in the specification *)
Lemma same_class_eq a b : same_class a b = true <-> a = b.
Proof. destruct a, b; cbn; split; congruence. Qed.
Lemma object_at_some vs k x l : object_at vs k x = Some l <-> nth_error vs x = Some (k, l).
Proof.
  unfold object_at. destruct (nth_error vs x) as [[c o]|]; [|split; discriminate].
  destruct (same_class c k) eqn:E; split; intros H; inversion H; subst; try reflexivity.
  - apply same_class_eq in E. subst. reflexivity.
  - assert (same_class k k = true) by (destruct k; reflexivity). congruence.
Qed.
Lemma addr_is s vs p : inv s vs ->
  addr (snd s) p = match object_at vs (class_of p) (whole p) with Some _ => Some (base vs (whole p) + from p)%nat | None => None end.
Proof.
  intros (_ & O & _). unfold object_at. destruct p as [x|x|x]; cbn [addr class_of whole from]; rewrite O, nth_objs; destruct (nth_error vs x) as [[c l]|]; try reflexivity; destruct c; cbn; unfold own_d; repeat f_equal; lia.
Qed.
Lemma daddr_is s vs x : inv s vs ->
  daddr (snd s) x = match object_at vs Dual x with Some _ => Some (base vs x, base vs x, base vs x + 4)%nat | None => None end.
Proof.
  intros (_ & O & _). unfold object_at, daddr. rewrite O, nth_objs; destruct (nth_error vs x) as [[c l]|]; try reflexivity; destruct c; reflexivity.
Qed.
Lemma eaddr_is s vs x : inv s vs ->
  eaddr (snd s) x = match object_at vs Error x with Some _ => Some (base vs x, base vs x, base vs x + 3, base vs x + 6)%nat | None => None end.
Proof.
  intros (_ & O & _). unfold object_at, eaddr. rewrite O, nth_objs; destruct (nth_error vs x) as [[c l]|]; try reflexivity; destruct c; reflexivity.
Qed.
Lemma all_length l k : all l = Some k -> length k = length l.
Proof.
  revert k; induction l as [|[r|] l IH]; intros k E; cbn [all] in E; [inversion E; reflexivity| |discriminate].
  destruct (all l) as [j|]; [|discriminate]. cbn in E. inversion E. cbn [length]. f_equal. apply IH. reflexivity.
Qed.
Lemma all_some l : all (some l) = Some l.
Proof. unfold some. induction l as [|r l IH]; [reflexivity|]. cbn [map all]. rewrite IH. reflexivity. Qed.
Lemma all_is l k : all l = Some k -> l = some k.
Proof.
  revert k; induction l as [|[r|] l IH]; intros k E; cbn [all] in E; [inversion E; reflexivity| |discriminate].
  destruct (all l) as [j|]; [|discriminate]. cbn in E. inversion E. cbn [some map]. f_equal. apply IH. reflexivity.
Qed.

(** Reads and writes of the machine against those of the specification *)
Lemma get_is s vs k x i n l : inv s vs -> object_at vs k x = Some l -> (i + n <= size k)%nat -> rd (fst s) (base vs x + i) n = get vs k x i n.
Proof.
  intros (M & _ & F) E H. unfold get. rewrite E. apply object_at_some in E. rewrite M. apply rd_at with (k := k); [assumption|].
  pose proof (wf_at _ _ _ F E) as W. unfold wf in W. cbn [fst snd] in W. lia.
Qed.
Lemma get_length vs k x i n l : Forall wf vs -> (i + n <= size k)%nat -> get vs k x i n = Some l -> length l = n.
Proof.
  intros F H E. unfold get in E. destruct (object_at vs k x) as [o|] eqn:O; [|discriminate]. apply object_at_some in O.
  apply all_length in E. rewrite E. apply slice_length. pose proof (wf_at _ _ _ F O) as W. unfold wf in W. cbn [fst snd] in W. lia.
Qed.
(** Agreement of outcomes *)
Definition agree (a : option machine) (b : option values) : Prop :=
  match a, b with Some s, Some vs => inv s vs | None, None => True | _, _ => False end.
Lemma set_is s vs k x i l w : inv s vs -> object_at vs k x = Some l -> (i + length w <= size k)%nat ->
  agree (option_map (fun m => (m, snd s)) (wr (fst s) (base vs x + i) w)) (set vs k x i w).
Proof.
  intros (M & O & F) E H. unfold set. rewrite E. apply object_at_some in E. pose proof (wf_at _ _ _ F E) as W.
  assert (L : length l = size k) by exact W.
  rewrite M, (wr_at vs x k l i w) by (assumption || lia). cbn [option_map agree].
  assert (W' : wf (k, splice i l (some w))) by (unfold wf; cbn [fst snd]; rewrite splice_length; [assumption|unfold some; rewrite map_length; lia]).
  split; [reflexivity|]. split; [|apply forall_splice; assumption]. cbn [snd]. rewrite O. symmetry. apply objs_splice with (v := (k, l)); auto.
Qed.
Lemma put_wr m a r : put m a r = wr m a [r].
Proof. cbn [wr]. destruct (put m a r); reflexivity. Qed.
Lemma add_is s vs k l : inv s vs -> length l = size k -> agree (Some (add s (map cell_of l ++ spare k) (own k))) (Some (vs ++ [(k, l)])).
Proof.
  intros (M & O & F) L. cbn [agree]. unfold inv, add. cbn [fst snd]. split; [|split].
  - unfold mem. rewrite flat_map_app, M. cbn [flat_map]. rewrite app_nil_r. reflexivity.
  - rewrite objs_app, O, M. reflexivity.
  - apply Forall_app. split; [assumption|]. constructor; [assumption|constructor].
Qed.
Lemma new_is s vs k l : inv s vs -> length l = size k -> agree (Some (add s (vals l ++ spare k) (own k))) (new vs k l).
Proof.
  intros I L. unfold new. rewrite L, Nat.eqb_refl. rewrite <- cells_some. apply add_is; [assumption|]. unfold some. rewrite map_length. assumption.
Qed.

(** Products *)
Lemma len4 (l : list R) : length l = 4%nat -> exists a b c d, l = [a; b; c; d].
Proof. destruct l as [|a [|b [|c [|d [|e l]]]]]; intros H; try discriminate. eauto. Qed.
Lemma times4_is a b : length a = 4%nat -> length b = 4%nat -> times4 a b = product a b.
Proof.
  intros A B. destruct (len4 a A) as (s & x & y & z & ->), (len4 b B) as (t & u & v & w & ->).
  unfold times4, pw, px, py, pz, product, outer, inner. cbn [nth].
  repeat (apply f_equal2; [ring|]). reflexivity.
Qed.
Lemma plus4_is a b : length a = 4%nat -> length b = 4%nat -> plus4 a b = sum a b.
Proof. intros A B. destruct (len4 a A) as (s & x & y & z & ->), (len4 b B) as (t & u & v & w & ->). reflexivity. Qed.
Lemma product_length a b : length a = 4%nat -> length b = 4%nat -> length (product a b) = 4%nat.
Proof. intros A B. rewrite <- times4_is by assumption. reflexivity. Qed.

Lemma nth_put m : forall a r m' b, put m a r = Some m' -> b <> a -> nth_error m' b = nth_error m b.
Proof.
  induction m as [|c m IH]; intros a r m' b E H; [destruct a; discriminate|].
  destruct a as [|a]; [destruct b as [|b]; [congruence|]; destruct c; inversion E; reflexivity|].
  assert (E' : option_map (cons c) (put m a r) = Some m') by (destruct c; exact E).
  destruct (put m a r) as [m1|] eqn:P; [|discriminate]. inversion E'. destruct b as [|b]; [reflexivity|]. cbn [nth_error]. eapply IH; [exact P|congruence].
Qed.
Lemma rd_put m a r m' n : put m a r = Some m' -> forall b, (a < b \/ b + n <= a)%nat -> rd m' b n = rd m b n.
Proof.
  intros E. induction n as [|n IH]; intros b H; [reflexivity|]. cbn [rd]. rewrite (nth_put _ _ _ _ _ E) by lia. rewrite IH by lia. reflexivity.
Qed.
Lemma mul_eq_apart m a b : (a + 4 <= b \/ b + 4 <= a)%nat -> mul_eq m a b = do s <- rd m a 4; do q <- rd m b 4; wr m a (times4 s q).
Proof.
  intros H. unfold mul_eq, bnd. destruct (rd m a 4) as [s|]; [|reflexivity]. destruct (rd m b 4) as [q|] eqn:Q; [|reflexivity].
  unfold times4. cbn [wr]. destruct (put m a (pw s q)) as [m1|] eqn:P1; [|reflexivity].
  rewrite (rd_put _ _ _ _ 4 P1) by lia. rewrite Q. replace (a + 1)%nat with (S a) by lia.
  destruct (put m1 (S a) (px s q)) as [m2|] eqn:P2; [|reflexivity].
  rewrite (rd_put _ _ _ _ 4 P2) by lia. rewrite (rd_put _ _ _ _ 4 P1) by lia. rewrite Q. replace (a + 2)%nat with (S (S a)) by lia.
  destruct (put m2 (S (S a)) (py s q)) as [m3|] eqn:P3; [|reflexivity].
  rewrite (rd_put _ _ _ _ 4 P3) by lia. rewrite (rd_put _ _ _ _ 4 P2) by lia. rewrite (rd_put _ _ _ _ 4 P1) by lia. rewrite Q.
  replace (a + 3)%nat with (S (S (S a))) by lia. destruct (put m3 (S (S (S a))) (pz s q)); reflexivity.
Qed.
Lemma places_apart vs p q l k : Forall wf vs -> p <> q -> object_at vs (class_of p) (whole p) = Some l -> object_at vs (class_of q) (whole q) = Some k ->
  (base vs (whole p) + from p + 4 <= base vs (whole q) + from q \/ base vs (whole q) + from q + 4 <= base vs (whole p) + from p)%nat.
Proof.
  intros F N A B. apply object_at_some in A, B.
  pose proof (wf_at _ _ _ F A) as LA. pose proof (wf_at _ _ _ F B) as LB. unfold wf in LA, LB. cbn [fst snd] in LA, LB.
  destruct (lt_eq_lt_dec (whole p) (whole q)) as [[H|H]|H].
  - pose proof (base_order vs _ (whole q) _ A H) as O. cbn [snd] in O. rewrite LA in O. destruct p, q; cbn [class_of size whole from] in *; lia.
  - rewrite <- H in B. rewrite A in B. inversion B as [[C D]]. rewrite H.
    destruct p as [x|x|x], q as [y|y|y]; cbn [class_of whole from] in *; try discriminate; subst; (congruence || lia).
  - pose proof (base_order vs _ (whole p) _ B H) as O. cbn [snd] in O. rewrite LB in O. destruct p, q; cbn [class_of size whole from] in *; lia.
Qed.

(** Quaternions, dual quaternions and error states by name: either there is none, or reads
    and writes agree *)
Definition wrote (s : machine) (a : nat) (w : list R) : option machine := option_map (fun m => (m, snd s)) (wr (fst s) a w).
Lemma from_size p : (from p + 4 <= size (class_of p))%nat.
Proof. destruct p; cbn; lia. Qed.
Lemma place_is s vs p : inv s vs ->
  (addr (snd s) p = None /\ get_place vs p = None /\ (forall w, set_place vs p w = None) /\ (forall i w, set vs (class_of p) (whole p) i w = None)) \/
  (exists a l, addr (snd s) p = Some a /\ a = (base vs (whole p) + from p)%nat /\ object_at vs (class_of p) (whole p) = Some l /\
    rd (fst s) a 4 = get_place vs p /\
    (forall i w, (i + length w <= 4)%nat -> agree (wrote s (a + i) w) (set vs (class_of p) (whole p) (from p + i) w)) /\
    (forall w, length w = 4%nat -> agree (wrote s a w) (set_place vs p w))).
Proof.
  intros I. pose proof (addr_is s vs p I) as A. destruct (object_at vs (class_of p) (whole p)) as [l|] eqn:E.
  - right. exists (base vs (whole p) + from p)%nat, l. pose proof (from_size p) as Z. repeat split; auto.
    + unfold get_place. apply get_is with (l := l); assumption.
    + intros i w H. unfold wrote. rewrite <- Nat.add_assoc. apply set_is with (l := l); [assumption|assumption|lia].
    + intros w H. unfold wrote, set_place. apply set_is with (l := l); [assumption|assumption|lia].
  - left. unfold get_place, get, set_place, set. rewrite E. auto.
Qed.
Lemma dual_is s vs x : inv s vs ->
  (daddr (snd s) x = None /\ (forall i n, get vs Dual x i n = None) /\ (forall i w, set vs Dual x i w = None)) \/
  (exists b, daddr (snd s) x = Some (b, b, b + 4)%nat /\
    (forall i n, (i + n <= 8)%nat -> rd (fst s) (b + i) n = get vs Dual x i n) /\
    (forall i w, (i + length w <= 8)%nat -> agree (wrote s (b + i) w) (set vs Dual x i w))).
Proof.
  intros I. pose proof (daddr_is s vs x I) as A. destruct (object_at vs Dual x) as [l|] eqn:E.
  - right. exists (base vs x). repeat split; auto.
    + intros i n H. apply get_is with (l := l); assumption.
    + intros i w H. apply set_is with (l := l); assumption.
  - left. unfold get, set. rewrite E. auto.
Qed.
Lemma error_is s vs x : inv s vs ->
  (eaddr (snd s) x = None /\ (forall i n, get vs Error x i n = None) /\ (forall i w, set vs Error x i w = None)) \/
  (exists b l, eaddr (snd s) x = Some (b, b, b + 3, b + 6)%nat /\ b = base vs x /\ object_at vs Error x = Some l /\
    (forall i n, (i + n <= 9)%nat -> rd (fst s) (b + i) n = get vs Error x i n) /\
    (forall i w, (i + length w <= 9)%nat -> agree (wrote s (b + i) w) (set vs Error x i w))).
Proof.
  intros I. pose proof (eaddr_is s vs x I) as A. destruct (object_at vs Error x) as [l|] eqn:E.
  - right. exists (base vs x), l. repeat split; auto.
    + intros i n H. apply get_is with (l := l); assumption.
    + intros i w H. apply set_is with (l := l); assumption.
  - left. unfold get, set. rewrite E. auto.
Qed.
Lemma get_place_length vs p l : Forall wf vs -> get_place vs p = Some l -> length l = 4%nat.
Proof. intros F. unfold get_place. apply get_length; [assumption|apply from_size]. Qed.

(** Assignments of error states: after the numbers, the parts change nothing *)
Lemma all_slice l i n k : all l = Some k -> all (slice i n l) = Some (slice i n k).
Proof. intros E. rewrite (all_is _ _ E). unfold slice, some. rewrite skipn_map, firstn_map. apply all_some. Qed.
Lemma splice_slice {A} i n (l : list A) : (i + n <= length l)%nat -> splice i l (slice i n l) = l.
Proof. intros H. unfold splice. rewrite slice_length by assumption. symmetry. apply split3. assumption. Qed.
Lemma splice_same {A} (vs : list A) : forall x v, nth_error vs x = Some v -> splice x vs [v] = vs.
Proof.
  induction vs as [|u vs IH]; intros x v E; [destruct x; discriminate|]. destruct x as [|x]; [inversion E; reflexivity|].
  unfold splice. cbn [firstn length Nat.add skipn app]. f_equal. apply IH. exact E.
Qed.
Lemma nth_splice {A} (vs : list A) : forall x v u y, nth_error vs x = Some v -> nth_error (splice x vs [u]) y = if (x =? y)%nat then Some u else nth_error vs y.
Proof.
  induction vs as [|w vs IH]; intros x v u y E; [destruct x; discriminate|]. destruct x as [|x].
  - unfold splice. cbn [firstn length Nat.add skipn app]. destruct y; reflexivity.
  - unfold splice. cbn [firstn length Nat.add skipn app]. destruct y as [|y]; [reflexivity|]. cbn [nth_error Nat.eqb]. apply (IH x v u y E).
Qed.
Lemma rd_inv s vs k x l i n : inv s vs -> object_at vs k x = Some (some l) -> (i + n <= length l)%nat -> rd (fst s) (base vs x + i) n = Some (slice i n l).
Proof.
  intros (M & _ & F) E H. apply object_at_some in E. rewrite M, (rd_at vs x k _ i n E) by (unfold some; rewrite map_length; lia).
  apply all_slice, all_some.
Qed.
Lemma wr_inv s vs k x l i n : inv s vs -> object_at vs k x = Some (some l) -> (i + n <= length l)%nat ->
  wr (fst s) (base vs x + i) (slice i n l) = Some (fst s).
Proof.
  intros (M & _ & F) E H. apply object_at_some in E. rewrite M, (wr_at vs x k _ i _ E) by (rewrite slice_length by assumption; unfold some; rewrite map_length; lia).
  do 2 f_equal. assert (X : some (slice i n l) = slice i n (some l)) by (unfold slice, some; rewrite skipn_map, firstn_map; reflexivity).
  rewrite X, splice_slice by (unfold some; rewrite map_length; assumption). apply splice_same. assumption.
Qed.

Lemma exec_agrees s vs c : inv s vs -> sound c -> agree (exec s c) (means vs c).
Proof.
  intros I S. pose proof I as (_ & _ & F).
  assert (NEW : forall k l, length l = size k -> agree (Some (add s (vals l ++ spare k) (own k))) (new vs k l)) by (intros; apply new_is; assumption).
  assert (NQ : forall l, length l = 4%nat -> agree (Some (add s (vals l) own_q)) (new vs Quaternion l))
    by (intros l L; specialize (NEW Quaternion l L); cbn [spare own] in NEW; rewrite app_nil_r in NEW; exact NEW).
  assert (ND : forall l, length l = 8%nat -> agree (Some (add s (vals l ++ raw4 ++ raw4) own_d)) (new vs Dual l)) by (intros l L; exact (NEW Dual l L)).
  assert (NE : forall l, length l = 9%nat -> agree (Some (add s (vals l) own_e)) (new vs Error l))
    by (intros l L; specialize (NEW Error l L); cbn [spare own] in NEW; rewrite app_nil_r in NEW; exact NEW).
  assert (Z : forall b, (b + 0 = b)%nat) by (intros; lia).
  assert (ES : s = (fst s, snd s)) by apply surjective_pairing.
  unfold exec. rewrite ES at 1. clear ES. destruct c; cbn [sound] in S; try contradiction; cbn [means]; cbv beta iota zeta.
  - apply NQ. reflexivity.
  - destruct (place_is s vs p I) as [(A & B & _)|(a & l & A & _ & _ & B & _)]; rewrite A; [rewrite B; exact Logic.I|].
    cbn [bnd]. rewrite B. destruct (get_place vs p) as [k|] eqn:E; [|exact Logic.I]. cbn [bnd]. apply NQ. apply (get_place_length vs p); assumption.
  - destruct (place_is s vs p I) as [(A & _ & _ & B)|(a & l & A & _ & _ & _ & B & _)]; rewrite A; cbn [bnd].
    + rewrite B. destruct (i <? 4)%nat; exact Logic.I.
    + destruct (Nat.ltb_spec i 4) as [H|H]; [|exact Logic.I]. cbn [guard bnd]. rewrite put_wr. apply (B i [r]). cbn [length]. lia.
  - destruct (place_is s vs p I) as [(A & _ & B & _)|(a & l & A & _ & _ & _ & _ & B)]; rewrite A; cbn [bnd].
    + destruct (get_place vs q); cbn [bnd]; [rewrite B|]; exact Logic.I.
    + destruct (place_is s vs q I) as [(A' & B' & _)|(a' & l' & A' & _ & _ & B' & _)]; rewrite A'; cbn [bnd]; [rewrite B'; exact Logic.I|].
      rewrite B'. destruct (get_place vs q) as [k|] eqn:E; [|exact Logic.I]. cbn [bnd]. apply B. apply (get_place_length vs q); assumption.
  - destruct (place_is s vs p I) as [(A & C & B & _)|(a & l & A & X & Y & C & _ & B)]; rewrite A; cbn [bnd]; [rewrite C; exact Logic.I|].
    destruct (place_is s vs q I) as [(A' & C' & _)|(a' & l' & A' & X' & Y' & C' & _)]; rewrite A'; cbn [bnd].
    + rewrite C'. destruct (get_place vs p); exact Logic.I.
    + pose proof (places_apart vs p q l l' F S Y Y') as D. rewrite mul_eq_apart by (subst a a'; exact D). rewrite C, C'.
      destruct (get_place vs p) as [j|] eqn:E; [|exact Logic.I]. cbn [bnd]. destruct (get_place vs q) as [k|] eqn:E'; [|exact Logic.I]. cbn [bnd].
      apply get_place_length in E; [|assumption]. apply get_place_length in E'; [|assumption].
      rewrite times4_is by assumption. apply B. apply product_length; assumption.
  - destruct (place_is s vs p I) as [(A & C & _)|(a & l & A & _ & _ & C & _)]; rewrite A; cbn [bnd]; [rewrite C; exact Logic.I|].
    destruct (place_is s vs q I) as [(A' & C' & _)|(a' & l' & A' & _ & _ & C' & _)]; rewrite A'; cbn [bnd].
    + rewrite C'. destruct (get_place vs p); exact Logic.I.
    + rewrite C, C'.
      destruct (get_place vs p) as [j|] eqn:E; [|exact Logic.I]. cbn [bnd]. destruct (get_place vs q) as [k|] eqn:E'; [|exact Logic.I]. cbn [bnd].
      apply get_place_length in E; [|assumption]. apply get_place_length in E'; [|assumption].
      rewrite times4_is by assumption. apply NQ. apply product_length; assumption.
  - apply (ND [1; 0; 0; 0; 0; 0; 0; 0]). reflexivity.
  - destruct (place_is s vs p I) as [(A & C & _)|(a & l & A & _ & _ & C & _)]; rewrite A; cbn [bnd]; [rewrite C; exact Logic.I|].
    destruct (place_is s vs q I) as [(A' & C' & _)|(a' & l' & A' & _ & _ & C' & _)]; rewrite A'; cbn [bnd].
    + rewrite C'. destruct (get_place vs p); exact Logic.I.
    + rewrite C, C'.
      destruct (get_place vs p) as [j|] eqn:E; [|exact Logic.I]. cbn [bnd]. destruct (get_place vs q) as [k|] eqn:E'; [|exact Logic.I]. cbn [bnd].
      apply get_place_length in E; [|assumption]. apply get_place_length in E'; [|assumption].
      apply ND. rewrite app_length, E, E'. reflexivity.
  - destruct (dual_is s vs x I) as [(A & B & _)|(b & A & B & _)]; rewrite A; cbn [bnd]; [rewrite B; exact Logic.I|].
    rewrite <- (Z b), B by lia. destruct (get vs Dual x 0 8) as [k|] eqn:E; [|exact Logic.I]. cbn [bnd]. apply ND. eapply get_length; [exact F| |exact E]. cbn; lia.
  - destruct (dual_is s vs x I) as [(A & _ & B)|(b & A & _ & B)]; rewrite A; cbn [bnd].
    + rewrite B. destruct (i <? 8)%nat; exact Logic.I.
    + destruct (Nat.ltb_spec i 8) as [H|H]; [|exact Logic.I]. cbn [guard bnd]. rewrite put_wr. apply (B i [r]). cbn [length]. lia.
  - destruct (dual_is s vs x I) as [(A & _ & B)|(b & A & _ & B)]; rewrite A; cbn [bnd].
    + destruct (get vs Dual y 0 8); cbn [bnd]; [rewrite B|]; exact Logic.I.
    + destruct (dual_is s vs y I) as [(A' & B' & _)|(b' & A' & B' & _)]; rewrite A'; cbn [bnd]; [rewrite B'; exact Logic.I|].
      rewrite <- (Z b'), B' by lia. destruct (get vs Dual y 0 8) as [k|] eqn:E; [|exact Logic.I]. cbn [bnd]. rewrite <- (Z b).
      assert (L : length k = 8%nat) by (eapply get_length; [exact F| |exact E]; cbn; lia).
      apply (B 0%nat k). rewrite L. lia.
  - destruct (dual_is s vs x I) as [(A & _ & B)|(b & A & _ & B)]; rewrite A; cbn [bnd].
    + destruct (get_place vs p); cbn [bnd]; [rewrite B|]; exact Logic.I.
    + destruct (place_is s vs p I) as [(A' & B' & _)|(a' & l' & A' & _ & _ & B' & _)]; rewrite A'; cbn [bnd]; [rewrite B'; exact Logic.I|].
      rewrite B'. destruct (get_place vs p) as [k|] eqn:E; [|exact Logic.I]. cbn [bnd]. apply get_place_length in E; [|assumption].
      rewrite <- (Z b). apply (B 0%nat k). lia.
  - destruct (dual_is s vs x I) as [(A & _ & B)|(b & A & _ & B)]; rewrite A; cbn [bnd].
    + destruct (get_place vs p); cbn [bnd]; [rewrite B|]; exact Logic.I.
    + destruct (place_is s vs p I) as [(A' & B' & _)|(a' & l' & A' & _ & _ & B' & _)]; rewrite A'; cbn [bnd]; [rewrite B'; exact Logic.I|].
      rewrite B'. destruct (get_place vs p) as [k|] eqn:E; [|exact Logic.I]. cbn [bnd]. apply get_place_length in E; [|assumption].
      apply (B 4%nat k). lia.
  - destruct (dual_is s vs x I) as [(A & B & _)|(b & A & B & _)]; rewrite A; cbn [bnd]; [rewrite B; exact Logic.I|].
    destruct (dual_is s vs y I) as [(A' & B' & _)|(b' & A' & B' & _)]; rewrite A'; cbn [bnd].
    + destruct (get vs Dual x 0 4); cbn [bnd]; [|exact Logic.I]. destruct (get vs Dual x 4 4); cbn [bnd]; [|exact Logic.I]. rewrite B'. exact Logic.I.
    + assert (R0 : rd (fst s) b 4 = get vs Dual x 0 4) by (rewrite <- (Z b); apply B; lia).
      assert (R1 : rd (fst s) b' 4 = get vs Dual y 0 4) by (rewrite <- (Z b'); apply B'; lia).
      rewrite R0, R1, (B 4 4)%nat, (B' 4 4)%nat by lia.
      destruct (get vs Dual x 0 4) as [a0|] eqn:E0; [|exact Logic.I]. cbn [bnd]. destruct (get vs Dual x 4 4) as [a1|] eqn:E1; [|exact Logic.I]. cbn [bnd].
      destruct (get vs Dual y 0 4) as [a2|] eqn:E2; [|exact Logic.I]. cbn [bnd]. destruct (get vs Dual y 4 4) as [a3|] eqn:E3; [|exact Logic.I]. cbn [bnd].
      apply get_length in E0; [|assumption|cbn; lia]. apply get_length in E1; [|assumption|cbn; lia]. apply get_length in E2; [|assumption|cbn; lia]. apply get_length in E3; [|assumption|cbn; lia].
      rewrite !times4_is by assumption. rewrite plus4_is by (apply product_length; assumption). apply ND.
      rewrite app_length, <- plus4_is by (apply product_length; assumption). rewrite product_length by assumption. reflexivity.
  - pose proof (add_is s vs Error (repeat None 9) I eq_refl) as A. cbn [spare own] in A. rewrite app_nil_r in A. exact A.
  - unfold new. destruct (Nat.eqb_spec (length l) 9) as [H|H]; cbn [guard bnd].
    + pose proof (NE l H) as N. unfold new in N. destruct (Nat.eqb_spec (length l) (size Error)) as [G|G]; [exact N|cbn in G; lia].
    + destruct (Nat.eqb_spec (length l) (size Error)) as [G|G]; [cbn in G; lia|exact Logic.I].
  - destruct (error_is s vs x I) as [(A & _ & B)|(b & o & A & W & O & _ & B)]; rewrite A; cbn [bnd].
    + destruct (get vs Error y 0 9); cbn [bnd]; [rewrite B|]; exact Logic.I.
    + destruct (error_is s vs y I) as [(A' & B' & _)|(b' & o' & A' & W' & O' & B' & _)]; rewrite A'; cbn [bnd]; [rewrite B'; exact Logic.I|].
      rewrite <- (Z b'), B' by lia. destruct (get vs Error y 0 9) as [k|] eqn:E; [|exact Logic.I]. cbn [bnd]. rewrite <- (Z b).
      assert (L : length k = 9%nat) by (eapply get_length; [exact F| |exact E]; cbn; lia).
      assert (Q : agree (wrote s (b + 0) k) (set vs Error x 0 k)) by (apply (B 0%nat k); rewrite L; lia).
      unfold wrote in Q. destruct (wr (fst s) (b + 0) k) as [m1|]; cbn [option_map bnd] in *;
        [|unfold set in *; rewrite O in *; exact Q].
      destruct (set vs Error x 0 k) as [vs1|] eqn:V; [|contradiction]. cbn [agree] in Q.
      pose proof O as N. apply object_at_some in N. pose proof O' as N'. apply object_at_some in N'.
      assert (LO : length o = 9%nat) by exact (wf_at _ _ _ F N).
      assert (V1 : vs1 = splice x vs [(Error, some k)]).
      { unfold set in V. rewrite O in V. inversion V. do 3 f_equal. unfold splice. cbn [firstn app Nat.add]. unfold some. rewrite map_length, L.
        rewrite skipn_all2 by lia. apply app_nil_r. }
      assert (KX : object_at vs1 Error x = Some (some k)) by (apply object_at_some; rewrite V1, (nth_splice vs x _ _ x N), Nat.eqb_refl; reflexivity).
      assert (KY : object_at vs1 Error y = Some (some k)).
      { apply object_at_some. rewrite V1, (nth_splice vs x _ _ y N). destruct (x =? y)%nat; [reflexivity|]. rewrite N'. do 2 f_equal.
        unfold get in E. rewrite O' in E. assert (LO' : length o' = 9%nat) by exact (wf_at _ _ _ F N').
        unfold slice in E. cbn [skipn] in E. rewrite firstn_all2 in E by lia. apply all_is. assumption. }
      assert (BX : base vs1 x = b).
      { rewrite W, V1. unfold base, splice. rewrite firstn_app, firstn_firstn, Nat.min_id. replace (x - length (firstn x vs))%nat with 0%nat; [rewrite app_nil_r; reflexivity|].
        assert (x < length vs)%nat by (apply nth_error_Some; congruence). rewrite firstn_length. lia. }
      assert (BY : base vs1 y = b').
      { destruct Q as (_ & Q2 & _). pose proof (nth_objs vs1 0 y) as Y1. cbn [snd] in Q2. rewrite <- Q2 in Y1. apply object_at_some in KY. rewrite KY in Y1.
        pose proof (eaddr_is s vs y I) as Y2. unfold eaddr in Y2. rewrite Y1, O' in Y2. cbn [fst own own_e Nat.add] in Y2. rewrite W'. congruence. }
      pose proof (fun i n H => rd_inv _ _ Error y k i n Q KY H) as RY. pose proof (fun i n H => wr_inv _ _ Error x k i n Q KX H) as WX. cbn [fst] in RY, WX. rewrite BY in RY. rewrite BX in WX.
      rewrite (RY 0 3)%nat by lia. cbn [bnd]. rewrite (WX 0 3)%nat by lia. cbn [bnd].
      rewrite !(Z b), !(Z b'). 
      rewrite (RY 3 3)%nat by lia. cbn [bnd]. rewrite (WX 3 3)%nat by lia. cbn [bnd].
      rewrite (RY 6 3)%nat by lia. cbn [bnd]. rewrite (WX 6 3)%nat by lia. cbn [option_map agree]. exact Q.
  - destruct (error_is s vs x I) as [(A & _ & B)|(b & o & A & _ & _ & _ & B)]; rewrite A; cbn [bnd].
    + rewrite B. destruct (length l =? 9)%nat; exact Logic.I.
    + destruct (Nat.eqb_spec (length l) 9) as [H|H]; [|exact Logic.I]. cbn [guard bnd]. rewrite <- (Z b). apply (B 0%nat l). lia.
  - destruct (error_is s vs x I) as [(A & _ & B)|(b & o & A & _ & _ & _ & B)]; rewrite A; cbn [bnd].
    + rewrite B. destruct (i <? 9)%nat; exact Logic.I.
    + destruct (Nat.ltb_spec i 9) as [H|H]; [|exact Logic.I]. cbn [guard bnd]. rewrite put_wr. apply (B i [r]). cbn [length]. lia.
  - destruct (error_is s vs x I) as [(A & _ & B)|(b & o & A & _ & _ & _ & B)]; rewrite A; cbn [bnd].
    + rewrite B. destruct (length l =? 3)%nat; exact Logic.I.
    + destruct (Nat.eqb_spec (length l) 3) as [H|H]; [|exact Logic.I]. cbn [guard bnd part_addr].
      destruct p; cbn [part_from]; [rewrite <- (Z b); apply (B 0%nat l); lia|apply (B 3%nat l); lia|apply (B 6%nat l); lia].
Qed.

Lemma all_agree p : forall s vs, inv s vs -> Forall sound p -> agree (exec_all s p) (means_all vs p).
Proof.
  induction p as [|c p IH]; intros s vs I S; [exact I|]. inversion S; subst. cbn [exec_all means_all].
  pose proof (exec_agrees s vs c I H1) as A. destruct (exec s c) as [s'|], (means vs c) as [vs'|]; try contradiction; [|exact Logic.I]. cbn [bnd]. apply IH; assumption.
Qed.
Lemma whole_slice {A} n (l : list A) : length l = n -> slice 0 n l = l.
Proof. intros H. unfold slice. cbn [skipn]. apply firstn_all2. lia. Qed.
Lemma see_is s vs : inv s vs -> see s = show vs.
Proof.
  intros (M & O & F). unfold see, show. rewrite M, O.
  assert (G : forall pre vs', Forall wf vs' -> vs = pre ++ vs' -> map (seen (mem vs)) (objs (length (mem pre)) vs') = map shown vs').
  { intros pre vs'. revert pre. induction vs' as [|[k l] vs' IH]; intros pre F' E; [reflexivity|]. cbn [objs map]. inversion F'; subst. f_equal.
    - assert (N : nth_error (pre ++ (k, l) :: vs') (length pre) = Some (k, l)) by (rewrite nth_error_app2, Nat.sub_diag by lia; reflexivity).
      assert (B : base (pre ++ (k, l) :: vs') (length pre) = length (mem pre)) by (unfold base; rewrite firstn_app, firstn_all, Nat.sub_diag; cbn [firstn]; rewrite app_nil_r; reflexivity).
      pose proof (fun i n => rd_at _ _ _ _ i n N) as RD. rewrite B in RD. unfold wf in H1. cbn [fst snd] in H1.
      assert (RZ : forall n, (n <= length l)%nat -> rd (mem (pre ++ (k, l) :: vs')) (length (mem pre)) n = all (slice 0 n l)) by (intros n H; rewrite <- (Nat.add_0_r (length (mem pre))); apply RD; assumption).
      destruct k; cbn [size] in H1; cbn [fst own own_q own_d own_e seen shown].
      + rewrite RZ, whole_slice by lia. reflexivity.
      + rewrite !RZ, !RD, whole_slice by lia. reflexivity.
      + rewrite !RZ, !RD, whole_slice by lia. reflexivity.
    - specialize (IH (pre ++ [(k, l)]) H2). rewrite <- app_assoc in IH. specialize (IH eq_refl).
      replace (length (mem (pre ++ [(k, l)]))) with (length (mem pre) + length (layout (k, l)))%nat in IH; [exact IH|].
      unfold mem. rewrite flat_map_app, app_length. cbn [flat_map]. rewrite app_nil_r. reflexivity. }
  apply (G nil vs F eq_refl).
Qed.
(** Every program of sound statements does what its values say *)
Lemma programs_are_values p : Forall sound p -> option_map see (run p) = option_map show (meaning p).
Proof.
  intros S. pose proof (all_agree p (nil, nil) nil) as A. unfold run, meaning.
  specialize (A (conj eq_refl (conj eq_refl (Forall_nil _))) S).
  destruct (exec_all (nil, nil) p) as [s|], (means_all nil p) as [vs|]; try contradiction; [|reflexivity]. cbn [option_map]. f_equal. apply see_is. exact A.
Qed.
