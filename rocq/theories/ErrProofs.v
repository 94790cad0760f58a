(** Proofs about errors. *)
From Coq Require Import String List Arith Bool Lia.
From Verif Require Import ErrModel ErrSpec.
Import ListNotations.

Section Run.
Variable source : nat -> string.
Variable lit_at arr_at : nat -> nat.
Variable image : memory.
Hypothesis Lay : laid_out source lit_at arr_at image.
Lemma errors_exec st s : snd (exec lit_at arr_at st s) = snd st ++ (match s with Literal k => [lit_at k] | Array a => [arr_at a] | NoError => [none] | _ => [] end).
Proof. destruct st as [m es], s; cbn; try reflexivity; rewrite app_nil_r; reflexivity. Qed.
Fixpoint places (p : list stmt) : list error :=
  match p with
  | [] => []
  | Literal k :: r => lit_at k :: places r
  | Array a :: r => arr_at a :: places r
  | NoError :: r => 0 :: places r
  | _ :: r => places r
  end.
Lemma errors_run p : forall st, snd (fold_left (exec lit_at arr_at) p st) = snd st ++ places p.
Proof.
  induction p as [|s p IH]; intros st; cbn [fold_left places]; [symmetry; apply app_nil_r|].
  rewrite IH, errors_exec. destruct s; rewrite <- app_assoc; reflexivity.
Qed.
Lemma errors_are p : snd (run lit_at arr_at image p) = places p.
Proof. apply errors_run. Qed.
Lemma memory_run p : forall st, (forall k, fst st (lit_at k) = Some (source k)) -> forall k, fst (fold_left (exec lit_at arr_at) p st) (lit_at k) = Some (source k).
Proof.
  induction p as [|s p IH]; intros st H; [exact H|]. cbn [fold_left]. apply IH. intros k. destruct st as [m es], s; cbn [exec fst] in *; try apply H;
  unfold set; destruct Lay as (_ & _ & D & _); destruct (Nat.eqb_spec (lit_at k) (arr_at a)) as [E|E]; try apply H; exfalso; exact (D k a E).
Qed.
Lemma memory_is p k : fst (run lit_at arr_at image p) (lit_at k) = Some (source k).
Proof. apply memory_run. intros j. apply Lay. Qed.
Lemma place_said p : forall arrays, literals p = true -> forall i e, nth_error (places p) i = Some e ->
  exists t, nth_error (said source arrays p) i = Some t /\ (t = None /\ e = 0 \/ exists k, t = Some (source k) /\ e = lit_at k).
Proof.
  induction p as [|s p IH]; intros arrays L i e H; [destruct i; discriminate|]. destruct s; cbn [literals places said] in *; try discriminate; try (apply IH; assumption).
  - destruct i as [|i]; cbn [nth_error] in *; [|apply IH; assumption]. inversion H. eexists. split; [reflexivity|]. right. exists k. split; reflexivity.
  - destruct i as [|i]; cbn [nth_error] in *; [|apply IH; assumption]. inversion H. eexists. split; [reflexivity|]. left. split; reflexivity.
Qed.
Lemma equal_same p arrays i j e f : literals p = true ->
  nth_error (snd (run lit_at arr_at image p)) i = Some e -> nth_error (snd (run lit_at arr_at image p)) j = Some f ->
  eq e f = true -> nth_error (said source arrays p) i = nth_error (said source arrays p) j.
Proof.
  rewrite errors_are. intros L Hi Hj E. apply Nat.eqb_eq in E. subst f.
  destruct (place_said p arrays L i e Hi) as (t & -> & T). destruct (place_said p arrays L j e Hj) as (u & -> & U). f_equal.
  destruct Lay as (LL & _). destruct T as [[-> T]|(k & -> & T)], U as [[-> U]|(l & -> & U)].
  - reflexivity.
  - exfalso. apply (proj1 (LL l)). congruence.
  - exfalso. apply (proj1 (LL k)). congruence.
  - pose proof (proj2 (LL k)) as A. pose proof (proj2 (LL l)) as B. rewrite <- T in A. rewrite <- U in B. congruence.
Qed.
Lemma same_equal p arrays i j e f : literals p = true -> pooled source lit_at ->
  nth_error (snd (run lit_at arr_at image p)) i = Some e -> nth_error (snd (run lit_at arr_at image p)) j = Some f ->
  nth_error (said source arrays p) i = nth_error (said source arrays p) j -> eq e f = true.
Proof.
  rewrite errors_are. intros L P Hi Hj. destruct (place_said p arrays L i e Hi) as (t & -> & T). destruct (place_said p arrays L j f Hj) as (u & -> & U).
  intros E. apply Nat.eqb_eq. destruct T as [[-> T]|(k & -> & T)], U as [[-> U]|(l & -> & U)]; try congruence.
  inversion E as [E']. rewrite T, U. apply P. exact E'.
Qed.
Lemma keeps p arrays i t : literals p = true -> nth_error (said source arrays p) i = Some t ->
  exists e, nth_error (snd (run lit_at arr_at image p)) i = Some e /\ what (fst (run lit_at arr_at image p)) e = shown t.
Proof.
  intros L H. destruct (nth_error (places p) i) as [e|] eqn:E.
  - destruct (place_said p arrays L i e E) as (u & U & C). rewrite H in U. inversion U. subst u. exists e. rewrite errors_are. split; [exact E|].
    unfold what. destruct C as [[-> ->]|(k & -> & ->)]; [reflexivity|]. destruct (Nat.eqb_spec (lit_at k) 0) as [Z|Z]; [exfalso; exact (proj1 (proj1 Lay k) Z)|].
    rewrite memory_is. reflexivity.
  - exfalso. apply nth_error_None in E. assert (N : nth_error (said source arrays p) i <> None) by congruence. apply nth_error_Some in N.
    assert (Q : length (said source arrays p) = length (places p)); [|lia]. clear. revert arrays. induction p as [|s p IH]; intros arrays; [reflexivity|]. destruct s; cbn [said places length]; rewrite ?IH; reflexivity.
Qed.
Lemma made_not_ok p arrays i e : (forall a, arr_at a <> 0) -> nth_error (snd (run lit_at arr_at image p)) i = Some e ->
  ok e = true -> literals p = true -> nth_error (said source arrays p) i = Some None.
Proof.
  rewrite errors_are. intros A H O L. apply Nat.eqb_eq in O. destruct (place_said p arrays L i e H) as (t & -> & [[-> _]|(k & -> & T)]); [reflexivity|].
  exfalso. apply (proj1 (proj1 Lay k)). congruence.
Qed.
Lemma none_ok p arrays i e : nth_error (snd (run lit_at arr_at image p)) i = Some e -> literals p = true -> nth_error (said source arrays p) i = Some None -> ok e = true.
Proof. rewrite errors_are. intros H L N. destruct (place_said p arrays L i e H) as (t & T & [[-> ->]|(k & -> & _)]); [reflexivity|]. congruence. Qed.
End Run.

(** Streams *)
Lemma put_bad ws : forall out, put_all (false, out) ws = Some (false, out).
Proof. induction ws as [|w ws IH]; intros out; [reflexivity|]. cbn. apply IH. Qed.
Lemma app_empty (s : string) : (s ++ "")%string = s.
Proof. induction s as [|c s IH]; [reflexivity|]. cbn. rewrite IH. reflexivity. Qed.
Lemma app_assoc_s (a b c : string) : ((a ++ b) ++ c)%string = (a ++ b ++ c)%string.
Proof. induction a as [|x a IH]; [reflexivity|]. cbn. rewrite IH. reflexivity. Qed.
Lemma texts_cons t r : texts (t :: r) = (match t with Some t => t | None => "" end ++ texts r)%string.
Proof.
  unfold texts. cbn [map]. destruct r as [|u r]; [cbn; destruct t; [symmetry; apply app_empty|reflexivity]|].
  cbn [map]. change (String.concat "" (?a :: ?b :: ?l)) with (a ++ "" ++ String.concat "" (b :: l))%string. reflexivity.
Qed.
Lemma put_shown ts : forall out, put_all (true, out) (map shown ts) = Some (forallb (fun t => match t with Some _ => true | None => false end) ts, (out ++ texts (up_to_none ts))%string).
Proof.
  induction ts as [|t ts IH]; intros out; [cbn; rewrite app_empty; reflexivity|].
  destruct t as [t|]; cbn [map shown put_all put up_to_none forallb andb].
  - rewrite IH, texts_cons, app_assoc_s. reflexivity.
  - rewrite put_bad. change (texts []) with ""%string. rewrite app_empty. reflexivity.
Qed.
Lemma up_to_all ts : ~ In None ts -> up_to_none ts = ts.
Proof. induction ts as [|t ts IH]; intros H; [reflexivity|]. destruct t; [|exfalso; apply H; left; reflexivity]. cbn. rewrite IH; [reflexivity|]. intros I. apply H. right. exact I. Qed.

(** RETURN_IF_NOT_OK *)
Section Macro.
Variable S : Type.
Variable fn : nat -> list error -> S -> error * S.
Lemma lookup_other env n c : n <> "err"%string -> lookup (("err"%string, c) :: env) n = lookup env n.
Proof. intros H. cbn [lookup]. destruct (String.eqb_spec n "err"); [contradiction|reflexivity]. Qed.
Lemma lookups_other env c ns : ~ In "err"%string ns -> lookups (("err"%string, c) :: env) ns = lookups env ns.
Proof.
  induction ns as [|n ns IH]; intros H; [reflexivity|]. cbn [lookups]. rewrite lookup_other, IH; [reflexivity| |]; intros I; apply H; [right|left]; congruence || exact I.
Qed.
Lemma eval_other env c e s : ~ In "err"%string (names e) -> eval S fn (("err"%string, c) :: env) e s = eval S fn env e s.
Proof.
  intros H. destruct e; cbn [eval names] in *.
  - rewrite lookup_other; [reflexivity|]. intros E. apply H. left. exact E.
  - rewrite lookups_other by exact H. reflexivity.
Qed.
Lemma body_means ls : Forall free_of_err ls -> forall env s, body S fn ls env s = means S fn ls env s.
Proof.
  intros F. induction F as [|l ls H F IH]; intros env s; [reflexivity|]. destruct l; cbn [body means free_of_err] in *.
  - destruct (eval S fn ((n, Uninit) :: env) e s) as [[v s']|]; [apply IH|reflexivity].
  - rewrite eval_other by exact H. destruct (eval S fn env e s) as [[v s']|]; [|reflexivity]. unfold ok. rewrite IH. reflexivity.
Qed.
Lemma body_app l1 l2 : forall env s, body S fn (l1 ++ l2) env s = match body S fn l1 env s with FellThrough env' s' => body S fn l2 env' s' | o => o end.
Proof.
  induction l1 as [|l l1 IH]; intros env s; [reflexivity|]. destruct l; cbn [app body].
  - destruct (eval S fn ((n, Uninit) :: env) e s) as [[v s']|]; [apply IH|reflexivity].
  - destruct (eval S fn (("err"%string, Uninit) :: env) e s) as [[v s']|]; [|reflexivity]. destruct (ok v); [apply IH|reflexivity].
Qed.
End Macro.
Lemma equal_texts source lit_at arr_at image p arrays i j e f k : laid_out source lit_at arr_at image -> literals p = true ->
  nth_error (snd (run lit_at arr_at image p)) i = Some e -> nth_error (snd (run lit_at arr_at image p)) j = Some f ->
  (eq e f = true -> nth_error (said source arrays p) i = nth_error (said source arrays p) j) /\
  (neq e f = false -> nth_error (said source arrays p) i = nth_error (said source arrays p) j) /\
  (eq_text e (lit_at k) = true -> nth_error (said source arrays p) i = Some (Some (source k))).
Proof.
  intros Lay L Hi Hj. pose proof (equal_same source lit_at arr_at image Lay p arrays i j e f L Hi Hj) as Q. split; [exact Q|]. split.
  - intros N. apply Q. apply negb_false_iff. exact N.
  - intros T. apply Nat.eqb_eq in T. rewrite (errors_are lit_at arr_at image p) in Hi.
    destruct (place_said source lit_at arr_at p arrays L i e Hi) as (t & -> & [[-> Z]|(l & -> & Z)]).
    + exfalso. apply (proj1 (proj1 Lay k)). congruence.
    + pose proof (proj2 (proj1 Lay k)) as A. pose proof (proj2 (proj1 Lay l)) as B. congruence.
Qed.
Lemma pooled_equal source lit_at arr_at image p arrays i j e f k : laid_out source lit_at arr_at image -> literals p = true -> pooled source lit_at ->
  nth_error (snd (run lit_at arr_at image p)) i = Some e -> nth_error (snd (run lit_at arr_at image p)) j = Some f ->
  (nth_error (said source arrays p) i = nth_error (said source arrays p) j -> eq e f = true /\ neq e f = false) /\
  (nth_error (said source arrays p) i = Some (Some (source k)) -> eq_text e (lit_at k) = true).
Proof.
  intros Lay L P Hi Hj. pose proof (same_equal source lit_at arr_at image p arrays i j e f L P Hi Hj) as Q. split.
  - intros S. specialize (Q S). split; [exact Q|]. apply negb_false_iff. exact Q.
  - rewrite (errors_are lit_at arr_at image p) in Hi. destruct (place_said source lit_at arr_at p arrays L i e Hi) as (t & -> & [[-> Z]|(l & -> & Z)]); [discriminate|].
    intros E. inversion E as [E']. apply Nat.eqb_eq. rewrite Z. apply P. exact E'.
Qed.
(** A layout in which no two literals share an address; arrays lie between them *)
Definition apart (k : nat) : nat := 2 * k + 1.
Definition between (a : nat) : nat := 2 * a + 2.
Definition image_of (source : nat -> string) : memory := fun x => if Nat.odd x then Some (source (x / 2)) else None.
Lemma half k : (2 * k + 1) / 2 = k.
Proof. symmetry. apply (Nat.div_unique _ _ _ 1); lia. Qed.
Lemma apart_laid source : laid_out source apart between (image_of source).
Proof.
  split; [|split; [|split]]; unfold apart, between, image_of.
  - intros k. split; [lia|]. rewrite half. assert (Nat.odd (2 * k + 1) = true) as ->; [|reflexivity]. apply Nat.odd_spec. exists k. reflexivity.
  - intros a. lia.
  - intros k a. lia.
  - intros a b. lia.
Qed.
Lemma one_pooled : laid_out (fun _ => "exit early"%string) (fun _ => 1) between (image_of (fun _ => "exit early"%string)) /\ pooled (fun _ => "exit early"%string) (fun _ => 1).
Proof. split; [split; [|split; [|split]]|]; unfold between, image_of; intros; try lia. - split; [lia|reflexivity]. - intros j k E. reflexivity. Qed.
