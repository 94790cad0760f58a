(** Specification of the objects of ViewModel as values: each object is a list of numbers
    of its own, a statement changes the object on its left side and nothing else, and the
    parts of an object are parts of its numbers.  Nothing here knows of memory. *)
From Coq Require Import List Reals Arith Bool.
From Verif Require Import ViewModel.
Import ListNotations.
Local Open Scope R_scope.

(** The classes, and how many numbers each has *)
Inductive class := Quaternion | Dual | Error.
Definition size (k : class) : nat := match k with Quaternion => 4 | Dual => 8 | Error => 9 end.
(** A number that was never set is [None] *)
Definition numbers := list (option R).
Definition value := (class * numbers)%type.
Definition values := list value.

(** All the numbers, if all are set *)
Fixpoint all (l : numbers) : option (list R) :=
  match l with nil => Some nil | Some r :: k => option_map (cons r) (all k) | None :: _ => None end.
Definition some (l : list R) : numbers := map Some l.
(** The [n] numbers from the position [i] on, and the numbers with those replaced *)
Definition slice {A} (i n : nat) (l : list A) : list A := firstn n (skipn i l).
Definition splice {A} (i : nat) (l k : list A) : list A := firstn i l ++ k ++ skipn (i + length k) l.

(** Which object a quaternion is part of, and from which of its numbers on *)
Definition whole (p : place) : nat := match p with Var x | RealOf x | DualOf x => x end.
Definition class_of (p : place) : class := match p with Var _ => Quaternion | _ => Dual end.
Definition from (p : place) : nat := match p with DualOf _ => 4 | _ => 0 end.
Definition same_class (a b : class) : bool := match a, b with Quaternion, Quaternion | Dual, Dual | Error, Error => true | _, _ => false end.

(** Read and change numbers of the object [x], which has to be of the class [k] *)
Definition object_at (vs : values) (k : class) (x : nat) : option numbers :=
  match nth_error vs x with Some (c, l) => if same_class c k then Some l else None | None => None end.
Definition get (vs : values) (k : class) (x i n : nat) : option (list R) :=
  match object_at vs k x with Some l => all (slice i n l) | None => None end.
Definition set (vs : values) (k : class) (x i : nat) (l : list R) : option values :=
  match object_at vs k x with Some o => Some (splice x vs [(k, splice i o (some l))]) | None => None end.
Definition get_place (vs : values) (p : place) : option (list R) := get vs (class_of p) (whole p) (from p) 4.
Definition set_place (vs : values) (p : place) (l : list R) : option values := set vs (class_of p) (whole p) (from p) l.

(** Hamilton's product: the scalar part is the product of the scalars less the inner
    product of the vectors; the vector part is each vector scaled by the other scalar and
    the cross product *)
Definition inner (a b : R * R * R) : R := let '(x, y, z) := a in let '(u, v, w) := b in x * u + y * v + z * w.
Definition outer (a b : R * R * R) : R * R * R := let '(x, y, z) := a in let '(u, v, w) := b in (y * w - z * v, z * u - x * w, x * v - y * u).
Definition product (a b : list R) : list R :=
  match a, b with
  | [s; x; y; z], [t; u; v; w] =>
      let '(c, d, e) := outer (x, y, z) (u, v, w) in
      [s * t - inner (x, y, z) (u, v, w); s * u + t * x + c; s * v + t * y + d; s * w + t * z + e]
  | _, _ => nil
  end.
Fixpoint sum (a b : list R) : list R := match a, b with x :: k, y :: l => (x + y) :: sum k l | _, _ => nil end.
(** Where a part of an error state starts *)
Definition part_from (p : part) : nat := match p with Alpha => 0 | Beta => 3 | Gamma => 6 end.

(** What each statement means *)
Definition new (vs : values) (k : class) (l : list R) : option values :=
  if (length l =? size k)%nat then Some (vs ++ [(k, some l)]) else None.
Definition means (vs : values) (c : stmt) : option values :=
  match c with
  | QNew w x y z => new vs Quaternion [w; x; y; z]
  | QCopy p => do l <- get_place vs p; new vs Quaternion l
  | QOver l => new vs Quaternion l
  | QSet p i r => if (i <? 4)%nat then set vs (class_of p) (whole p) (from p + i) [r] else None
  | QAssign p q => do l <- get_place vs q; set_place vs p l
  | QMulEq p q => do a <- get_place vs p; do b <- get_place vs q; set_place vs p (product a b)
  | QTimes p q => do a <- get_place vs p; do b <- get_place vs q; new vs Quaternion (product a b)
  | DNew => new vs Dual [1; 0; 0; 0; 0; 0; 0; 0]
  | DScalars l => new vs Dual l
  | DParts p q => do a <- get_place vs p; do b <- get_place vs q; new vs Dual (a ++ b)
  | DCopy x => do l <- get vs Dual x 0 8; new vs Dual l
  | DSet x i r => if (i <? 8)%nat then set vs Dual x i [r] else None
  | DAssign x y => do l <- get vs Dual y 0 8; set vs Dual x 0 l
  | DSetReal x p => do l <- get_place vs p; set vs Dual x 0 l
  | DSetDual x p => do l <- get_place vs p; set vs Dual x 4 l
  | DTimes x y =>
      do a <- get vs Dual x 0 4; do b <- get vs Dual x 4 4; do c <- get vs Dual y 0 4; do d <- get vs Dual y 4 4;
      new vs Dual (product a c ++ sum (product a d) (product b c))
  | ENew => Some (vs ++ [(Error, repeat None 9)])
  | EOf l => new vs Error l
  | ECopy x => do l <- get vs Error x 0 9; new vs Error l
  | EAssign x y => do l <- get vs Error y 0 9; set vs Error x 0 l
  | EAssignVec x l => if (length l =? 9)%nat then set vs Error x 0 l else None
  | ESet x i r => if (i <? 9)%nat then set vs Error x i [r] else None
  | ESetPart x p l => if (length l =? 3)%nat then set vs Error x (part_from p) l else None
  end.
Fixpoint means_all (vs : values) (p : list stmt) : option values :=
  match p with nil => Some vs | c :: k => do vs' <- means vs c; means_all vs' k end.
Definition meaning (p : list stmt) : option values := means_all nil p.
(** What is to be read of an object *)
Definition shown (v : value) : list (option (list R)) :=
  let '(k, l) := v in
  match k with
  | Quaternion => [all l]
  | Dual => [all l; all (slice 0 4 l); all (slice 4 4 l)]
  | Error => [all l; all (slice 0 3 l); all (slice 3 3 l); all (slice 6 3 l)]
  end.
Definition show (vs : values) : list (list (option (list R))) := map shown vs.

(** The statements that behave as values *)
Definition sound (c : stmt) : Prop :=
  match c with
  | QOver _ | DScalars _ | ECopy _ => False
  | QMulEq p q => p <> q
  | _ => True
  end.
