(** Properties C216 and C217: copies of circular buffers. *)
From Coq Require Import List Arith Bool ZArith.
From Verif Require Import CircularBufferModel CircularBufferSpec BufCopyModel BufCopySpec BufCopyProofs.
Import ListNotations.

(** C216.  Full statement: after a CircularBuffer is copied, the original and the copy are
    two queues, each changed by its own operations only.  Proved of every history of the
    original before the copy and every sequence of removals from either of the two after
    it; missing are operations that put objects in, which go to the other's slots, and
    size() of the copy, both refuted below. *)
Theorem c216_copy_partial : forall (A : Type) (N : nat), 2 <= N ->
  forall (ops : list (op A)) (l : list A) (cs : list (bool * op A)) (q : list A * list A),
  dq_run (N - 1) [] ops = Some l -> forallb (fun c => takes (snd c)) cs = true -> pair_run (N - 1) (l, l) cs = Some q ->
  let s := trun N (copied (run N ops)) cs in
  contents N (view s false) = map Some (fst q) /\ contents N (view s true) = map Some (snd q).
Proof. exact (fun A N H => copy_reads N H). Qed.
Print Assumptions c216_copy_partial.
Example c216_case : dq_run 3 [] [EmplaceBack 1; EmplaceBack 2; EmplaceBack 3; EmplaceBack 4] = Some [2; 3; 4] /\
  forallb (fun c => takes (A := nat) (snd c)) [(true, PopFront); (false, PopBack); (true, PopBack)] = true /\
  pair_run (A := nat) 3 ([2; 3; 4], [2; 3; 4]) [(true, PopFront); (false, PopBack); (true, PopBack)] = Some ([2; 3], [3]).
Proof. repeat split. Qed.
(** Each puts an object in; the original shows the object of the copy *)
Theorem c216_push_refuted : exists (ops : list (op nat)) (l : list nat) (cs : list (bool * op nat)) (q : list nat * list nat),
  dq_run 3 [] ops = Some l /\ pair_run 3 (l, l) cs = Some q /\
  let s := trun 4 (copied (run 4 ops)) cs in contents 4 (view s false) <> map Some (fst q).
Proof.
  exists [EmplaceBack 1], [1], [(false, EmplaceBack 2); (true, EmplaceBack 3)], ([1; 2], [1; 3]). repeat split. cbv. discriminate.
Qed.
Print Assumptions c216_push_refuted.
(** size() of the copy is right as long as the original is left alone and the copy only
    gives objects out *)
Theorem c216_size_partial : forall (A : Type) (N : nat), 2 <= N -> (Z.of_nat N <= 2 ^ 64)%Z ->
  forall (ops : list (op A)) (l : list A) (os : list (op A)) (l' : list A),
  dq_run (N - 1) [] ops = Some l -> forallb takes os = true -> dq_run (N - 1) l os = Some l' ->
  copy_size N (trun N (copied (run N ops)) (map (pair true) os)) = Z.of_nat (length l').
Proof. exact (fun A N H B ops l os l' => copy_size_own N H ops l os l' B). Qed.
Print Assumptions c216_size_partial.
Example c216_size_case : copy_size 4 (trun 4 (copied (run 4 [EmplaceBack 1; EmplaceBack 2; EmplaceBack 3; EmplaceBack 4])) (map (pair true) [PopFront; PopBack])) = 1%Z.
Proof. reflexivity. Qed.
(** Removing from the original changes the size that the copy reports *)
Theorem c216_size_refuted : exists (ops : list (op nat)) (l : list nat),
  dq_run 3 [] ops = Some l /\ length l = 2 /\
  copy_size 4 (copied (run 4 ops)) = 2%Z /\ copy_size 4 (trun 4 (copied (run 4 ops)) [(false, PopFront)]) = (2 ^ 64 - 2)%Z.
Proof. exists [EmplaceBack 1; EmplaceBack 2], [1; 2]. repeat split. Qed.
Print Assumptions c216_size_refuted.

(** C217.  Full statement: when a CircularBuffer and its copy end, in either order, each
    object is destroyed once.  Proved where the buffer is empty when it is copied; wrong
    for every buffer that holds an object. *)
Theorem c217_ended_partial : forall (A : Type) (N : nat), 2 <= N -> forall (ops : list (op A)) (who : bool),
  lifetime_safe_run (N - 1) [] ops = true -> contents N (run N ops) = [] ->
  forallb event_ok (log (ended N (ended N (copied (run N ops)) who) (negb who))) = true.
Proof. exact (fun A N H => ended_empty N H). Qed.
Print Assumptions c217_ended_partial.
Theorem c217_ended_wrong : forall (A : Type) (N : nat), 2 <= N -> forall (ops : list (op A)) (who : bool),
  lifetime_safe_run (N - 1) [] ops = true -> contents N (run N ops) <> [] ->
  forallb event_ok (log (ended N (ended N (copied (run N ops)) who) (negb who))) = false.
Proof. exact (fun A N H => ended_twice N H). Qed.
Print Assumptions c217_ended_wrong.
Theorem c217_ended_refuted : exists (ops : list (op nat)) (who : bool), lifetime_safe_run 3 [] ops = true /\
  forallb event_ok (log (ended 4 (ended 4 (copied (run 4 ops)) who) (negb who))) = false.
Proof. exists [EmplaceBack 1; EmplaceBack 2], true. split; reflexivity. Qed.
Print Assumptions c217_ended_refuted.
Example c217_case : lifetime_safe_run 3 [] [EmplaceBack 1; EmplaceBack 2; PopFront; PopFront] = true /\
  contents 4 (run 4 [EmplaceBack 1; EmplaceBack 2; PopFront; PopFront]) = [] /\ contents 4 (run 4 [EmplaceBack 1]) <> [].
Proof. repeat split. cbv. discriminate. Qed.
