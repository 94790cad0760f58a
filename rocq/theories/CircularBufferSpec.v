(** Specification: a double-ended queue as a list.  A push at one end of a full
    queue first drops the element at the other end.  Popping an empty queue and
    indexing outside it are misuse ([None]). *)
From Coq Require Import List Arith Bool.
From Verif Require Import CircularBufferModel.
Import ListNotations.

Section Deque.
Context {A : Type}.
Variable cap : nat.

Definition dq_push_back (l : list A) (x : A) : list A :=
  (if length l =? cap then List.tl l else l) ++ [x].
Definition dq_push_front (l : list A) (x : A) : list A :=
  x :: (if length l =? cap then removelast l else l).

Definition dq_step (l : list A) (o : op A) : option (list A) :=
  match o with
  | EmplaceBack x | PushBack x => Some (dq_push_back l x)
  | EmplaceFront x | PushFront x => Some (dq_push_front l x)
  | PopFront => match l with [] => None | _ :: t => Some t end
  | PopBack => match l with [] => None | _ => Some (removelast l) end
  | Clear => Some []
  | SetAt i x => if i <? length l then Some (firstn i l ++ x :: skipn (S i) l) else None
  end.

Fixpoint dq_run (l : list A) (ops : list (op A)) : option (list A) :=
  match ops with
  | [] => Some l
  | o :: r => match dq_step l o with Some l' => dq_run l' r | None => None end
  end.
(** operations whose lifetime behaviour is right: no pop_back, no push of either
    kind, and emplace_front only when it does not have to make room *)
Definition lifetime_safe (l : list A) (o : op A) : bool :=
  match o with
  | EmplaceBack _ | PopFront | Clear | SetAt _ _ => true
  | EmplaceFront _ => length l <? cap
  | PushBack _ | PushFront _ | PopBack => false
  end.
Fixpoint lifetime_safe_run (l : list A) (ops : list (op A)) : bool :=
  match ops with
  | [] => true
  | o :: r => lifetime_safe l o && match dq_step l o with Some l' => lifetime_safe_run l' r | None => false end
  end.
End Deque.

(** lifetime specification: no call on a slot in the wrong state *)
Definition event_ok (e : event) : bool :=
  match e with Ctor _ ok | Dtor _ ok | Assign _ ok => ok end.
Definition is_ctor (e : event) : bool := match e with Ctor _ _ => true | _ => false end.
Definition is_dtor (e : event) : bool := match e with Dtor _ _ => true | _ => false end.
Definition ctors {A} (b : cb A) : nat := length (filter is_ctor (events b)).
Definition dtors {A} (b : cb A) : nat := length (filter is_dtor (events b)).
