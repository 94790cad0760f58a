(** Properties C06 and C07: CircularBuffer (common/circular_buffer.h). *)
From Coq Require Import List Arith Bool Lia.
From Verif Require Import Bytes CircularBufferModel CircularBufferSpec CircularBufferProofs.
Import ListNotations.

(** C06: after any history without misuse, every observation of the buffer is
    that of a double-ended queue with N - 1 places. *)
Theorem c06_buffer_is_bounded_deque : forall (A : Type) (N : nat), 2 <= N ->
  forall (ops : list (op A)) (l : list A),
  dq_run (N - 1) [] ops = Some l ->
  let b := run N ops in
  contents N b = map Some l /\ size N b = length l /\ length l <= N - 1 /\
  empty b = (length l =? 0) /\ full N b = (length l =? N - 1) /\
  (l <> [] -> front b = hd_error l /\ back N b = hd_error (rev l)) /\
  (forall i, i < length l -> at_ N b i = nth_error l i).
Proof. exact (fun A N H ops l => run_observes N H ops l). Qed.
Print Assumptions c06_buffer_is_bounded_deque.

Example c06_case :
  dq_run 3 [] [EmplaceBack 1; PushBack 2; PushFront 0; EmplaceBack 3; PopBack; PushFront 9; SetAt 1 7; PushFront 8] = Some [8; 9; 7]
  /\ contents 4 (run 4 [EmplaceBack 1; PushBack 2; PushFront 0; EmplaceBack 3; PopBack; PushFront 9; SetAt 1 7; PushFront 8])
     = [Some 8; Some 9; Some 7].
Proof. split; reflexivity. Qed.

(** C07, full statement (false of the code):
      forall N >= 2 and every history without misuse, every constructor,
      destructor and assignment is applied to a slot in the right state, and
      after clearing the buffer as many objects were destroyed as constructed. *)
Theorem c07_pop_back_refuted : exists (ops : list (op nat)) l,
  dq_run 3 [] ops = Some l /\
  forallb event_ok (events (run 4 ops)) = false /\
  ctors (clear 4 (run 4 ops)) = 2.
Proof. exists [EmplaceBack 1; EmplaceBack 2; PopBack; PopBack], []. repeat split. Qed.
Print Assumptions c07_pop_back_refuted.

Theorem c07_push_back_refuted : exists (ops : list (op nat)) l,
  dq_run 3 [] ops = Some l /\ forallb event_ok (events (run 4 ops)) = false.
Proof. exists [PushBack 1], [1]. repeat split. Qed.
Print Assumptions c07_push_back_refuted.

(** C07, the part that holds: histories of emplace_back, pop_front, clear,
    element assignment and emplace_front into a buffer that is not full. *)
Theorem c07_lifetimes_partial : forall (A : Type) (N : nat), 2 <= N ->
  forall ops : list (op A), lifetime_safe_run (N - 1) [] ops = true ->
  forallb event_ok (events (run N ops)) = true /\
  ctors (run N ops) = dtors (run N ops) + size N (run N ops) /\
  forallb event_ok (events (clear N (run N ops))) = true /\
  ctors (clear N (run N ops)) = dtors (clear N (run N ops)).
Proof. exact (fun A N H ops => lifetimes_ok N H ops). Qed.
Print Assumptions c07_lifetimes_partial.

Example c07_case :
  lifetime_safe_run 2 [] [EmplaceBack 1; EmplaceBack 2; EmplaceBack 3; PopFront; EmplaceFront 5; SetAt 0 6; Clear; EmplaceBack 9] = true.
Proof. reflexivity. Qed.
