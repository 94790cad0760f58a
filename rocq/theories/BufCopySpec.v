(** Specification of a copy: two queues that have nothing to do with each other after the
    copy is made. *)
From Coq Require Import List Arith Bool.
From Verif Require Import CircularBufferModel CircularBufferSpec.
Import ListNotations.

Section Pair.
Context {A : Type}.
Variable cap : nat.
(** The first queue is the original, the second the copy *)
Definition pair_step (q : list A * list A) (c : bool * op A) : option (list A * list A) :=
  if fst c then match dq_step cap (snd q) (snd c) with Some l => Some (fst q, l) | None => None end
  else match dq_step cap (fst q) (snd c) with Some l => Some (l, snd q) | None => None end.
Fixpoint pair_run (q : list A * list A) (cs : list (bool * op A)) : option (list A * list A) :=
  match cs with nil => Some q | c :: r => match pair_step q c with Some q' => pair_run q' r | None => None end end.
End Pair.
(** Operations that put nothing in *)
Definition takes {A} (o : op A) : bool := match o with PopFront | PopBack | Clear => true | _ => false end.
