(** What is expected of a LogReader used for some time. *)
From Coq Require Import ZArith NArith List Bool.
From Verif Require Import SerializeModel SerializeSpec UtcTimeModel UtcTimeSpec LogModel LogSpec NextModel.
Import ListNotations.
Local Open Scope list_scope.
Local Open Scope nat_scope.

(** The end of time stands for "no record"; the records of a key the user was given. *)
Definition is_record (m : utc * list value) : bool := (instant (fst m) <? instant (mkUtc (2 ^ 63 - 1) 0))%Z.
Definition given (k : Z) (tr : list event) : list (utc * list value) := filter is_record (delivered k tr).
(** How often getNext was called for a key. *)
Definition asked (k : Z) (cs : list call) : nat := length (filter (fun c => match c with GetNext k' => (k' =? k)%Z | _ => false end) cs).
Definition is_get (c : call) : bool := match c with GetNext _ => true | _ => false end.
Definition is_read (c : call) : bool := match c with Read _ => true | _ => false end.

Section S.
Variable translation dual : list Z -> list Z -> list Z.
(** The answers to successive calls of getNext: the records [rs] one by one, and the
    end of time for every call after the last record. *)
Definition answers (rs : list (utc * list (ty * value))) (ms : list (utc * list value)) : Prop :=
  forall i m, nth_error ms i = Some m ->
    match nth_error rs i with Some r => same_record translation dual r m | None => fst m = mkUtc (2 ^ 63 - 1) 0 end.
End S.
Definition total (files : list wstream) (ops : list wop) : nat := list_sum (map (fun f => length (logged (w_key f) ops)) files).
