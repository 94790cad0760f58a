(** What post-processing a log should do. *)
From Coq Require Import ZArith List.
From Verif Require Import UtcTimeModel UtcTimeSpec.
Import ListNotations.

Definition ms10 : Z := 10000000.
(** records that follow one another within ten milliseconds *)
Inductive close {O} : list (utc * O) -> Prop :=
| cl_one x : close [x]
| cl_more x y l : (instant (fst y) - instant (fst x) <= ms10)%Z -> close (y :: l) -> close (x :: y :: l).
(** the records cut wherever more than ten milliseconds lie between two of them *)
Inductive cut_at_gaps {O} : list (list (utc * O)) -> list (utc * O) -> Prop :=
| ca_nil : cut_at_gaps [] []
| ca_last b : close b -> cut_at_gaps [b] b
| ca_more b x t o bs l : close (b ++ [x]) -> (ms10 < instant t - instant (fst x))%Z -> cut_at_gaps bs ((t, o) :: l) ->
    cut_at_gaps ((b ++ [x]) :: bs) ((b ++ [x]) ++ (t, o) :: l).
(** two times are the same *)
Definition same_time (a b : utc) : bool := ((sec a =? sec b) && (nsec a =? nsec b))%Z%bool.
(** the observations of a block that have the time of its first *)
Definition alike {O} (time : O -> utc) (b : list O) : list O :=
  match b with [] => [] | f :: _ => filter (fun o => same_time (time f) (time o)) b end.
(** a block as one measurement: at the stamp of its last record *)
Definition batch_of {O} (time : O -> utc) (b : list (utc * O)) (d : utc * O) : utc * list O := (fst (last b d), alike time (map snd b)).
(** a stamp of a record *)
Definition since_1970 (t : utc) : Prop := normal t /\ (0 <= sec t < 2 ^ 62)%Z.
