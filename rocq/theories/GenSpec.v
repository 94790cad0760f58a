(** What is said of generated filters, without the generator's own notions. *)
From Coq Require Import String List Arith Reals.
From Verif Require Import LinSpec GenModel.
Import ListNotations.

(** degrees of freedom: a rotation has three, a rigid motion six, whatever they are stored as *)
Definition freedom (k : kind) : nat :=
  match k with QuatK | SO3K => 3 | DQuatK | SE3K => 3 + 3 | VecK n => n end.
(** the number of components of a member: for a variable one, those of an element as many
    times as there are elements *)
Definition extent (cnt : string -> nat) (s : member) : nat :=
  match bundle s with Some _ => cnt (counter_var s) * freedom (base s) | None => freedom (base s) end.
(** component [i] of the [r]-th member, counted from the start of the whole *)
Definition place (cnt : string -> nat) (l : list member) (r i : nat) : nat := list_sum (map (extent cnt) (firstn r l)) + i.
Definition whole_extent (cnt : string -> nat) (l : list member) : nat := list_sum (map (extent cnt) l).
(** [i] is a component of the [r]-th member, which is [s] *)
Definition component (cnt : string -> nat) (l : list member) (r i : nat) (s : member) : Prop :=
  nth_error l r = Some s /\ i < extent cnt s.
(** fixed members come before variable ones *)
Definition fixed_first (l : list member) : Prop := exists a b, l = a ++ b /\ (forall s, In s a -> bundle s = None) /\ (forall s, In s b -> bundle s <> None).
(** every variable member is full *)
Definition full (cnt : string -> nat) (l : list member) : Prop := forall s n, In s l -> bundle s = Some n -> cnt (counter_var s) = n.
(** copies of a matrix, side by side *)
Definition copies (rows cols : nat) (a m : lmat) (v h : nat) : Prop :=
  forall i j k l, i < v -> j < h -> k < rows -> l < cols -> m (i * rows + k) (j * cols + l) = a k l.
