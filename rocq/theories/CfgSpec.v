(** What a configuration says: the value at a path of names. *)
From Coq Require Import ZArith String Ascii List.
From Verif Require Import CfgModel StrSpec.
Import ListNotations.

(** [v] is the value of the first entry named [k] *)
Inductive entry (k : string) (v : yaml) : list (yaml * yaml) -> Prop :=
| e_here r : entry k v ((Scalar k, v) :: r)
| e_there a w r : a <> Scalar k -> entry k v r -> entry k v ((a, w) :: r).
(** from a node to the node of that name; an element of a sequence is named by its index *)
Inductive step (k : string) (v : yaml) : yaml -> Prop :=
| st_map l : entry k v l -> step k v (Map l)
| st_seq l i : nth_error l i = Some v -> k = LogNameModel.dec (Z.of_nat i) -> step k v (Seq l).
Inductive at_path (v : yaml) : yaml -> list string -> Prop :=
| ap_here : at_path v v []
| ap_down n c k p : step k c n -> at_path v c p -> at_path v n (k :: p).

(** names that can be written in a key: without a slash, the last one not empty *)
Definition names (p : list string) : Prop :=
  p <> [] /\ Forall (fun k => ~ has "/"%char k) p /\ last p ""%string <> ""%string.
Definition key_of (p : list string) : string := joined "/"%char p.

(** a matrix as the list of its rows *)
Definition shape {A} (rows cols : nat) (m : list (list A)) : Prop := length m = rows /\ Forall (fun r => length r = cols) m.
