(** Byte buffers seen as bit strings.  Shared vocabulary for models and
    specifications; nothing here models code. *)
From Coq Require Import NArith List Lia Arith Bool.
Import ListNotations.
Local Open Scope N_scope.

Definition byte_ok (b : N) : Prop := b < 256.
Definition bytes_ok (l : list N) : Prop := Forall byte_ok l.

(** Bit [k] of a buffer, bit 0 being the most significant bit of byte 0. *)
Definition bit_at (buf : list N) (k : nat) : bool :=
  N.testbit (nth (k / 8) buf 0) (N.of_nat (7 - k mod 8)).

(** Replace byte [i]; [None] when [i] is outside the buffer. *)
Fixpoint upd {A} (l : list A) (i : nat) (x : A) : option (list A) :=
  match l, i with
  | [], _ => None
  | _ :: t, O => Some (x :: t)
  | h :: t, S i' => match upd t i' x with Some t' => Some (h :: t') | None => None end
  end.

Lemma upd_some : forall A (l : list A) i x,
  (i < length l)%nat -> exists l', upd l i x = Some l'.
Proof.
  induction l as [|h t IH]; intros i x H; simpl in *; [lia|].
  destruct i; [eauto|]. destruct (IH i x) as [l' E]; [lia|]. rewrite E; eauto.
Qed.

Lemma upd_length : forall A (l : list A) i x l', upd l i x = Some l' -> length l' = length l.
Proof.
  induction l as [|h t IH]; intros i x l' H; simpl in *; [discriminate|].
  destruct i; [inversion H; reflexivity|].
  destruct (upd t i x) eqn:E; [|discriminate]. inversion H; simpl. erewrite IH; eauto.
Qed.

Lemma upd_nth : forall A (l : list A) i x l' d j, upd l i x = Some l' ->
  nth j l' d = if Nat.eqb j i then x else nth j l d.
Proof.
  induction l as [|h t IH]; intros i x l' d j H; simpl in *; [discriminate|].
  destruct i.
  - inversion H; destruct j; reflexivity.
  - destruct (upd t i x) eqn:E; [|discriminate]. inversion H; subst.
    destruct j; simpl; [reflexivity|]. apply IH; assumption.
Qed.

Lemma upd_lt : forall A (l : list A) i x l', upd l i x = Some l' -> (i < length l)%nat.
Proof.
  induction l as [|h t IH]; intros i x l' H; simpl in *; [discriminate|].
  destruct i; [lia|]. destruct (upd t i x) eqn:E; [|discriminate].
  apply IH in E. lia.
Qed.

Lemma upd_Forall : forall A (P : A -> Prop) l i x l',
  Forall P l -> P x -> upd l i x = Some l' -> Forall P l'.
Proof.
  induction l as [|h t IH]; intros i x l' HF Hx H; simpl in *; [discriminate|].
  inversion HF; subst. destruct i.
  - inversion H; subst; constructor; assumption.
  - destruct (upd t i x) eqn:E; [|discriminate]. inversion H; subst.
    constructor; [assumption|].
    match goal with HH : Forall P t |- _ => exact (IH _ _ _ HH Hx E) end.
Qed.

Lemma nth_error_nth_lt : forall A (l : list A) i d,
  (i < length l)%nat -> nth_error l i = Some (nth i l d).
Proof.
  induction l as [|h t IH]; intros i d H; simpl in *; [lia|].
  destruct i; [reflexivity|]. apply IH; lia.
Qed.

Lemma bytes_ok_nth : forall l i, bytes_ok l -> nth i l 0 < 256.
Proof.
  intros l i H. destruct (Nat.lt_ge_cases i (length l)) as [L|L].
  - apply (proj1 (Forall_forall _ _) H). apply nth_In; assumption.
  - rewrite nth_overflow by assumption. reflexivity.
Qed.

Lemma testbit_lt_pow2 : forall x n m, x < 2 ^ n -> n <= m -> N.testbit x m = false.
Proof.
  intros x n m H L. destruct (N.eq_dec x 0) as [->|NZ]; [apply N.bits_0|].
  apply N.bits_above_log2. apply N.log2_lt_pow2 in H; lia.
Qed.

Lemma lt_pow2_testbit : forall x n, (forall m, n <= m -> N.testbit x m = false) -> x < 2 ^ n.
Proof.
  intros x n H. destruct (N.eq_dec x 0) as [->|NZ].
  - apply N.neq_0_lt_0, N.pow_nonzero; discriminate.
  - apply N.log2_lt_pow2; [lia|]. destruct (N.lt_ge_cases (N.log2 x) n) as [L|L]; [assumption|].
    specialize (H _ L). rewrite N.bit_log2 in H by assumption. discriminate.
Qed.

Lemma byte_testbit_high : forall b m, b < 256 -> 8 <= m -> N.testbit b m = false.
Proof. intros. apply testbit_lt_pow2 with 8; assumption. Qed.

Lemma upd_total : forall A (l : list A) i x, (length l <= i)%nat -> upd l i x = None.
Proof.
  induction l as [|h t IH]; intros i x H; simpl in *; [reflexivity|].
  destruct i; [lia|]. rewrite IH by lia. reflexivity.
Qed.
