(** Proofs about the graph. *)
From Coq Require Import List Reals Arith Bool Lia.
From Verif Require Import CircularBufferModel GraphModel GraphSpec.
Import ListNotations.
Local Open Scope R_scope.

Lemma exec_app p q : forall g, exec_all g (p ++ q) = match exec_all g p with Some g' => exec_all g' q | None => None end.
Proof. induction p as [|c p IH]; intros g; [reflexivity|]. cbn [app exec_all]. destruct (exec g c); [apply IH|reflexivity]. Qed.
Lemma states_app p q : states_made (p ++ q) = states_made p ++ states_made q.
Proof. induction p as [|c p IH]; [reflexivity|]. destruct c; cbn [app states_made]; rewrite IH; reflexivity. Qed.
Lemma factors_app p q : factors_made (p ++ q) = factors_made p ++ factors_made q.
Proof. induction p as [|c p IH]; [reflexivity|]. destruct c; cbn [app factors_made]; rewrite IH; reflexivity. Qed.
Lemma written_snoc p c x : last_written (p ++ [c]) x = match c with SetState y l => if (y =? x)%nat then Some l else last_written p x | _ => last_written p x end.
Proof.
  induction p as [|d p IH]; [destruct c; reflexivity|]. cbn [app last_written]. rewrite IH. destruct c as [k|y l|s a|y f]; try reflexivity. destruct (y =? x)%nat; reflexivity.
Qed.
Lemma nth_replace ss : forall x s y, (x < length ss)%nat -> nth_error (replace ss x s) y = if (x =? y)%nat then Some s else nth_error ss y.
Proof.
  induction ss as [|u ss IH]; intros x s y H; [cbn in H; lia|]. destruct x as [|x]; destruct y as [|y]; try reflexivity.
  cbn [length] in H. unfold replace. cbn [firstn skipn app nth_error Nat.eqb]. apply (IH x s y). lia.
Qed.
Lemma length_replace ss x s : (x < length ss)%nat -> length (replace ss x s) = length ss.
Proof. intros H. unfold replace. rewrite app_length. cbn [length]. rewrite firstn_length, skipn_length. lia. Qed.

(** The invariant: each state is what the program says *)
Definition right (p : list stmt) (x : nat) (s : state) (k : kind) : Prop :=
  class s = k /\ ID s = state_id k /\ DIM s = count k /\ data s = numbers_of p x k /\ (forall l, data s = Some l -> length l = count k).
Definition inv (p : list stmt) (g : graph) : Prop :=
  length (fst g) = length (states_made p) /\
  (forall x k, nth_error (states_made p) x = Some k -> exists s, nth_error (fst g) x = Some s /\ right p x s k) /\
  map refs (snd g) = map snd (factors_made p) /\
  (forall f s a, nth_error (factors_made p) f = Some (s, a) -> forall x, In x a -> (x < length (fst g))%nat) /\
  (forall x, (length (fst g) <= x)%nat -> last_written p x = None).
Lemma count_dim k : state_dim k = count k.
Proof. destruct k; reflexivity. Qed.
Lemma fits_in ss ks : forall args, fits ss ks args = true -> forall x, In x args -> (x < length ss)%nat.
Proof.
  induction ks as [|k ks IH]; intros args H x I; destruct args as [|a args]; try discriminate; [contradiction|].
  cbn [fits] in H. destruct (nth_error ss a) as [s|] eqn:E; [|discriminate]. apply andb_prop in H. destruct H as [_ H].
  destruct I as [<-|I]; [apply nth_error_Some; congruence|]. apply (IH args H x I).
Qed.
Lemma inv_step p g c g' : inv p g -> exec g c = Some g' -> inv (p ++ [c]) g'.
Proof.
  intros (L & S & F & B & W) E. destruct g as [ss fs]. cbn [fst snd] in *. unfold inv. rewrite states_app, factors_app.
  destruct c as [k|x l|s a|x f]; cbn [exec states_made factors_made] in *.
  - inversion E; subst; clear E. cbn [fst snd]. rewrite !app_length, L, app_nil_r. cbn [length].
    split; [reflexivity|]. split; [|split; [assumption|split]].
    + intros x j Hx. destruct (Nat.lt_ge_cases x (length (states_made p))) as [Hl|Hl].
      * rewrite nth_error_app1 in Hx by assumption. destruct (S x j Hx) as (s & Hs & R). exists s. split; [rewrite nth_error_app1 by lia; assumption|].
        unfold right, numbers_of in *. rewrite written_snoc. exact R.
      * rewrite nth_error_app2 in Hx by assumption. destruct (x - length (states_made p))%nat as [|d] eqn:D; [|destruct d; discriminate].
        inversion Hx; subst. exists (new_state j). assert (x = length ss) by lia. subst x. split; [rewrite nth_error_app2, Nat.sub_diag by lia; reflexivity|].
        unfold right, numbers_of, new_state. rewrite written_snoc. cbn [class ID DIM data]. rewrite (W (length ss)) by lia.
        split; [reflexivity|]. split; [reflexivity|]. split; [apply count_dim|]. split; [destruct j; reflexivity|]. intros l El. destruct j; try discriminate. inversion El. reflexivity.
    + intros f s a H x I. specialize (B f s a H x I). lia.
    + intros x Hx. rewrite written_snoc. apply W. lia.
  - destruct (nth_error ss x) as [s|] eqn:Es; [|discriminate]. destruct (Nat.eqb_spec (length l) (DIM s)) as [Hd|]; [|discriminate].
    inversion E; subst; clear E. cbn [fst snd]. rewrite !app_nil_r. assert (HX : (x < length ss)%nat) by (apply nth_error_Some; congruence).
    split; [rewrite length_replace by assumption; assumption|]. split; [|split; [assumption|split]].
    + intros y k Hy. destruct (S y k Hy) as (u & Hu & R). rewrite nth_replace by assumption. destruct (Nat.eqb_spec x y) as [<-|N].
      * rewrite Es in Hu. inversion Hu; subst u. eexists. split; [reflexivity|]. destruct R as (R1 & R2 & R3 & _). unfold right, numbers_of. rewrite written_snoc, Nat.eqb_refl. cbn [class ID DIM data].
        repeat split; try assumption. intros j Ej. inversion Ej. congruence.
      * exists u. split; [assumption|]. unfold right, numbers_of in *. rewrite written_snoc. destruct (Nat.eqb_spec x y); [contradiction|exact R].
    + intros f t a H y I. rewrite length_replace by assumption. apply (B f t a H y I).
    + intros y Hy. rewrite length_replace in Hy by assumption. rewrite written_snoc. destruct (Nat.eqb_spec x y); [lia|]. apply W. assumption.
  - destruct (fits ss (takes_states s) a) eqn:Fi; [|discriminate]. inversion E; subst; clear E. cbn [fst snd]. rewrite app_nil_r.
    split; [assumption|]. split; [|split; [|split]].
    + intros y k Hy. destruct (S y k Hy) as (u & Hu & R). exists u. split; [assumption|]. unfold right, numbers_of in *. rewrite written_snoc. exact R.
    + rewrite !map_app, F. reflexivity.
    + intros f t b H x I. destruct (Nat.lt_ge_cases f (length (factors_made p))) as [Hl|Hl].
      * rewrite nth_error_app1 in H by assumption. apply (B f t b H x I).
      * rewrite nth_error_app2 in H by assumption. destruct (f - length (factors_made p))%nat as [|d]; [|destruct d; discriminate]. inversion H; subst. eapply fits_in; eassumption.
    + intros x Hx. rewrite written_snoc. apply W. assumption.
  - destruct (nth_error ss x) as [s|] eqn:Es; [|discriminate]. destruct (nth_error fs f) as [fa|]; [|discriminate].
    inversion E; subst; clear E. cbn [fst snd]. rewrite !app_nil_r. assert (HX : (x < length ss)%nat) by (apply nth_error_Some; congruence).
    split; [rewrite length_replace by assumption; assumption|]. split; [|split; [assumption|split]].
    + intros y k Hy. destruct (S y k Hy) as (u & Hu & R). rewrite nth_replace by assumption. destruct (Nat.eqb_spec x y) as [<-|N].
      * rewrite Es in Hu. inversion Hu; subst u. eexists. split; [reflexivity|]. unfold right, numbers_of in *. rewrite written_snoc. exact R.
      * exists u. split; [assumption|]. unfold right, numbers_of in *. rewrite written_snoc. exact R.
    + intros h t a H y I. rewrite length_replace by assumption. apply (B h t a H y I).
    + intros y Hy. rewrite length_replace in Hy by assumption. rewrite written_snoc. apply W. assumption.
Qed.
Lemma inv_run p : forall g, run p = Some g -> inv p g.
Proof.
  induction p as [|c p IH] using rev_ind; intros g E.
  - inversion E; subst. repeat split; try (intros; reflexivity).
    + intros x k H. destruct x; discriminate.
    + intros f s a H. destruct f; discriminate.
  - unfold run in *. rewrite exec_app in E. destruct (exec_all (nil, nil) p) as [h|]; [|discriminate].
    cbn [exec_all] in E. destruct (exec h c) as [h'|] eqn:X; [|discriminate]. inversion E; subst. apply inv_step with h; [apply IH; reflexivity|assumption].
Qed.
Lemma items_right p g f s a : run p = Some g -> nth_error (factors_made p) f = Some (s, a) ->
  exists es, base_items g f = Some es /\ Forall2 (shows p) a es.
Proof.
  intros E H. destruct (inv_run p g E) as (L & S & F & B & _).
  assert (N : nth_error (map refs (snd g)) f = Some a) by (rewrite F; rewrite nth_error_map, H; reflexivity).
  rewrite nth_error_map in N. destruct (nth_error (snd g) f) as [fa|] eqn:G; [|discriminate]. cbn in N. inversion N; subst.
  exists (map (item (fst g)) (refs fa)). unfold base_items. rewrite G. split; [reflexivity|].
  specialize (B f s _ H). clear N H G. induction (refs fa) as [|x r IH]; [constructor|]. constructor; [|apply IH; intros y I; apply B; right; exact I].
  assert (HX : (x < length (states_made p))%nat) by (rewrite <- L; apply B; left; reflexivity).
  destruct (nth_error (states_made p) x) as [k|] eqn:K; [|apply nth_error_None in K; lia].
  destruct (S x k K) as (u & Hu & R1 & R2 & R3 & R4 & R5). exists k. split; [exact K|]. unfold item. rewrite Hu.
  split; [rewrite R2; destruct k; reflexivity|]. split; [exact R3|]. split; [exact R4|]. intros l El. rewrite R3. apply R5. exact El.
Qed.
Lemma ids_differ j k : state_id j = state_id k -> j = k.
Proof. destruct j, k; cbn; intros H; try reflexivity; discriminate. Qed.

(** What is on the lists of states was put there *)
Lemma lists_run p : forall g, run p = Some g -> forall x l, factors_of g x = Some l -> forall f, In f l -> In (PutOn x f) p.
Proof.
  induction p as [|c p IH] using rev_ind; intros g E x l Hl f I.
  - inversion E; subst. unfold factors_of in Hl. destruct x; discriminate.
  - unfold run in *. rewrite exec_app in E. destruct (exec_all (nil, nil) p) as [[ss fs]|] eqn:X; [|discriminate].
    cbn [exec_all] in E. destruct (exec (ss, fs) c) as [h'|] eqn:Y; [|discriminate]. inversion E; subst h'. clear E.
    specialize (IH (ss, fs) eq_refl). apply in_or_app. unfold factors_of in *. cbn [fst] in IH.
    destruct c as [k|y w|s a|y h]; cbn [exec] in Y.
    + left. inversion Y; subst. cbn [fst] in Hl. destruct (Nat.lt_ge_cases x (length ss)) as [C|C].
      * rewrite nth_error_app1 in Hl by assumption. eapply IH; eassumption.
      * rewrite nth_error_app2 in Hl by assumption. destruct (x - length ss)%nat as [|d]; [|destruct d; discriminate]. inversion Hl; subst. contradiction.
    + left. destruct (nth_error ss y) as [s|] eqn:Es; [|discriminate]. destruct (length w =? DIM s)%nat; [|discriminate]. inversion Y; subst. cbn [fst] in Hl.
      rewrite nth_replace in Hl by (apply nth_error_Some; congruence). destruct (Nat.eqb_spec y x) as [->|N]; [|eapply IH; eassumption].
      cbn [on] in Hl. inversion Hl; subst. eapply IH; [|exact I]. rewrite Es. reflexivity.
    + left. destruct (fits ss (takes_states s) a); [|discriminate]. inversion Y; subst. eapply IH; eassumption.
    + destruct (nth_error ss y) as [s|] eqn:Es; [|discriminate]. destruct (nth_error fs h); [|discriminate]. inversion Y; subst. cbn [fst] in Hl.
      rewrite nth_replace in Hl by (apply nth_error_Some; congruence). destruct (Nat.eqb_spec y x) as [->|N]; [|left; eapply IH; eassumption].
      cbn [on] in Hl. inversion Hl; subst. apply in_app_or in I. destruct I as [I|[<-|[]]]; [left; eapply IH; [rewrite Es; reflexivity|exact I]|right; left; reflexivity].
Qed.
Lemma first_node o : last_node (new_graph o) = Some (mkNode (Some (t0 o)) (Some (x0 o)) (Some (vel0 o)) (Some (clk0 o)) (repeat (Some 1) 30)).
Proof. reflexivity. Qed.
Lemma one_node o : contents 26 (new_graph o) = [last_node (new_graph o)].
Proof. reflexivity. Qed.
(** The classes of the states of a factor *)
Lemma fits_classes ss ks : forall args, fits ss ks args = true -> map (fun x => option_map class (nth_error ss x)) args = map Some ks.
Proof.
  induction ks as [|k ks IH]; intros args H; destruct args as [|a args]; try discriminate; [reflexivity|].
  cbn [fits] in H. destruct (nth_error ss a) as [s|] eqn:E; [|discriminate]. apply andb_prop in H. destruct H as [K H].
  cbn [map]. rewrite E, (IH args H). cbn [option_map]. apply internal_kind_dec_bl in K. rewrite K. reflexivity.
Qed.
Lemma takes_about s : takes_states s = about s.
Proof. destruct s; reflexivity. Qed.
Lemma classes_run p : forall g, run p = Some g -> forall f s a, nth_error (factors_made p) f = Some (s, a) -> map (nth_error (states_made p)) a = map Some (about s).
Proof.
  induction p as [|c p IH] using rev_ind; intros g E f s a H; [destruct f; discriminate|].
  unfold run in *. rewrite exec_app in E. destruct (exec_all (nil, nil) p) as [[ss fs]|] eqn:X; [|discriminate].
  cbn [exec_all] in E. destruct (exec (ss, fs) c) as [h'|] eqn:Y; [|discriminate].
  pose proof (inv_run p (ss, fs) X) as (L & S & _ & B & _). cbn [fst snd] in *.
  specialize (IH (ss, fs) eq_refl). rewrite states_app. rewrite factors_app in H.
  destruct (Nat.lt_ge_cases f (length (factors_made p))) as [Hl|Hl].
  - rewrite nth_error_app1 in H by assumption. rewrite <- (IH f s a H). apply map_ext_in. intros x I. apply nth_error_app1. rewrite <- L. exact (B f s a H x I).
  - rewrite nth_error_app2 in H by assumption. destruct c as [k|y w|t b|y h]; cbn [factors_made] in H; try (destruct (f - length (factors_made p))%nat; discriminate).
    destruct (f - length (factors_made p))%nat as [|d]; [|destruct d; discriminate]. inversion H; subst t b. clear H.
    cbn [exec] in Y. destruct (fits ss (takes_states s) a) eqn:F; [|discriminate]. cbn [states_made]. rewrite app_nil_r.
    rewrite <- takes_about, <- (fits_classes ss _ a F). apply map_ext_in. intros x I.
    pose proof (fits_in ss _ a F x I) as HX. destruct (nth_error (states_made p) x) as [k|] eqn:K; [|apply nth_error_None in K; lia].
    destruct (S x k K) as (u & Hu & R & _). rewrite Hu. cbn [option_map]. rewrite R. reflexivity.
Qed.
