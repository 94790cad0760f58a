(** Model of the objects of the library that look at memory through [Eigen::Map] members:
    math::Quat (common/math/quat.h), math::DQuat (common/math/dquat.h) and ImuErrorState
    (models/imu_state.h, models/imu_state.cxx).  A program is a list of statements on
    named objects; the model runs it on a memory of single numbers, so that two objects
    may look at the same numbers and an object may look at numbers that are gone.

    Simplifications: numbers are reals; named objects live to the end of the program and
    memory is not used twice; padding and alignment are left out; a temporary that only
    passes a value on (the result of a product before it is copied) is that value; a
    statement that would not compile (an object that is not there or is of another class,
    a vector of another length, an index that is out of range, which Eigen asserts) and
    undefined behaviour (reading a number that was never set, touching memory that is gone)
    are both [None]. *)
From Coq Require Import List Reals Arith Bool.
Import ListNotations.
Local Open Scope R_scope.

(** One number in memory: gone with the temporary that held it, not set yet, or set *)
Inductive cell := Gone | Raw | Val (r : R).
Definition memory := list cell.

(** Read [n] numbers from the address [a] *)
Fixpoint rd (m : memory) (a n : nat) : option (list R) :=
  match n with
  | O => Some nil
  | S k => match nth_error m a with Some (Val r) => option_map (cons r) (rd m (S a) k) | _ => None end
  end.
(** Write one number at the address [a] *)
Fixpoint put (m : memory) (a : nat) (r : R) : option memory :=
  match m, a with
  | nil, _ => None
  | Gone :: _, O => None
  | _ :: m', O => Some (Val r :: m')
  | c :: m', S b => option_map (cons c) (put m' b r)
  end.
(** Write numbers from the address [a] on, one after another *)
Fixpoint wr (m : memory) (a : nat) (l : list R) : option memory :=
  match l with
  | nil => Some m
  | r :: k => match put m a r with Some m' => wr m' (S a) k | None => None end
  end.

(** An object: where each of its [Eigen::Map] members (and, for an ImuErrorState, its own
    nine numbers) looks.  common/math/quat.h:25,62 (buf_, arr_); common/math/dquat.h:65-67
    (arr_, r_, d_; of r_ and d_ only the member arr_); models/imu_state.h:10-23 (the base
    Vec9, alpha, beta, gamma). *)
Inductive object := OQ (arr : nat) | OD (arr r d : nat) | OE (base alpha beta gamma : nat).
Definition machine := (memory * list object)%type.

(** What can be named as a quaternion: an object, or real() and dual() of a dual quaternion
    (common/math/dquat.h:106-109, which return references) *)
Inductive place := Var (x : nat) | RealOf (x : nat) | DualOf (x : nat).
Inductive part := Alpha | Beta | Gamma.
Inductive stmt :=
| QNew (w x y z : R)                    (* Quat q(w, x, y, z); *)
| QCopy (p : place)                     (* Quat q(p); *)
| QOver (l : list R)                    (* Quat q(e); where e is an expression of four numbers *)
| QSet (p : place) (i : nat) (r : R)    (* p[i] = r; *)
| QAssign (p q : place)                 (* p = q; *)
| QMulEq (p q : place)                  (* p *= q; *)
| QTimes (p q : place)                  (* Quat r = p * q; *)
| DNew                                  (* DQuat d; *)
| DScalars (l : list R)                 (* DQuat d(rw, rx, ry, rz, dw, dx, dy, dz); *)
| DParts (p q : place)                  (* DQuat d(p, q); *)
| DCopy (x : nat)                       (* DQuat d(x); *)
| DSet (x i : nat) (r : R)              (* x[i] = r; *)
| DAssign (x y : nat)                   (* x = y; *)
| DSetReal (x : nat) (p : place)        (* x.setReal(p); *)
| DSetDual (x : nat) (p : place)        (* x.setDual(p); *)
| DTimes (x y : nat)                    (* DQuat d = x * y; *)
| ENew                                  (* ImuErrorState e; *)
| EOf (l : list R)                      (* ImuErrorState e(v); where v is a vector *)
| ECopy (x : nat)                       (* ImuErrorState e(x); *)
| EAssign (x y : nat)                   (* x = y; *)
| EAssignVec (x : nat) (l : list R)     (* x = v; *)
| ESet (x i : nat) (r : R)              (* x(i) = r; *)
| ESetPart (x : nat) (p : part) (l : list R). (* x.alpha = v; and so on *)

Definition addr (os : list object) (p : place) : option nat :=
  match p with
  | Var x => match nth_error os x with Some (OQ a) => Some a | _ => None end
  | RealOf x => match nth_error os x with Some (OD _ r _) => Some r | _ => None end
  | DualOf x => match nth_error os x with Some (OD _ _ d) => Some d | _ => None end
  end.
Definition daddr (os : list object) (x : nat) : option (nat * nat * nat) :=
  match nth_error os x with Some (OD a r d) => Some (a, r, d) | _ => None end.
Definition eaddr (os : list object) (x : nat) : option (nat * nat * nat * nat) :=
  match nth_error os x with Some (OE b a be g) => Some (b, a, be, g) | _ => None end.

Definition bnd {A B} (x : option A) (f : A -> option B) : option B := match x with Some a => f a | None => None end.
Notation "'do' x <- a ; b" := (bnd a (fun x => b)) (at level 200, x name, a at level 100, b at level 200).
Definition guard (b : bool) : option unit := if b then Some tt else None.

(** The four numbers of a product, each from the numbers of its factors:
    common/math/quat.h:109-112,122-125 *)
Definition pw (a b : list R) : R := nth 0 a 0 * nth 0 b 0 - nth 1 a 0 * nth 1 b 0 - nth 2 a 0 * nth 2 b 0 - nth 3 a 0 * nth 3 b 0.
Definition px (a b : list R) : R := nth 0 a 0 * nth 1 b 0 + nth 1 a 0 * nth 0 b 0 + nth 2 a 0 * nth 3 b 0 - nth 3 a 0 * nth 2 b 0.
Definition py (a b : list R) : R := nth 0 a 0 * nth 2 b 0 - nth 1 a 0 * nth 3 b 0 + nth 2 a 0 * nth 0 b 0 + nth 3 a 0 * nth 1 b 0.
Definition pz (a b : list R) : R := nth 0 a 0 * nth 3 b 0 + nth 1 a 0 * nth 2 b 0 - nth 2 a 0 * nth 1 b 0 + nth 3 a 0 * nth 0 b 0.
(** Quat::otimes writes to a quaternion of its own: common/math/quat.h:117-128 *)
Definition times4 (a b : list R) : list R := [pw a b; px a b; py a b; pz a b].
(** Quat::operator+: common/math/quat.h:77-82 *)
Definition plus4 (a b : list R) : list R :=
  [nth 0 a 0 + nth 0 b 0; nth 1 a 0 + nth 1 b 0; nth 2 a 0 + nth 2 b 0; nth 3 a 0 + nth 3 b 0].
(** Quat::operator*=: common/math/quat.h:101-115.  The numbers of the left side are saved
    first; those of the right side are read again for each number written (the operands of
    << and of the comma are evaluated from left to right, C++17) *)
Definition mul_eq (m : memory) (a b : nat) : option memory :=
  do s <- rd m a 4;
  do q <- rd m b 4; do m <- put m a (pw s q);
  do q <- rd m b 4; do m <- put m (a + 1) (px s q);
  do q <- rd m b 4; do m <- put m (a + 2) (py s q);
  do q <- rd m b 4; put m (a + 3) (pz s q).

Definition vals (l : list R) : memory := map Val l.
(** A new object, at the end of the memory: its numbers and where it looks *)
Definition add (s : machine) (l : memory) (o : nat -> object) : machine :=
  (fst s ++ l, snd s ++ [o (length (fst s))]).
(** A quaternion that looks at its own buffer: common/math/quat.h:31-33,37 *)
Definition own_q (b : nat) : object := OQ b.
(** A dual quaternion that looks at its own buffer, with the buffers of r_ and d_, which
    are not looked at, behind it: common/math/dquat.h:69-74 *)
Definition own_d (b : nat) : object := OD b b (b + 4).
Definition raw4 : memory := [Raw; Raw; Raw; Raw].
(** DQuat of eight numbers: arr_ looks at buf_, but r_ and d_ are quaternions of their
    own, made by Quat(): common/math/dquat.h:76-86, common/math/quat.h:31 *)
Definition scalars_d (b : nat) : object := OD b (b + 8) (b + 12).
Definition one4 : list R := [1; 0; 0; 0].
(** An ImuErrorState whose parts look at its own numbers: models/imu_state.h:14-19,
    models/imu_state.cxx:55 *)
Definition own_e (b : nat) : object := OE b b (b + 3) (b + 6).
Definition raw9 : memory := [Raw; Raw; Raw; Raw; Raw; Raw; Raw; Raw; Raw].
Definition part_addr (v : nat * nat * nat * nat) (p : part) : nat :=
  let '(_, a, b, g) := v in match p with Alpha => a | Beta => b | Gamma => g end.

(** One statement *)
Definition exec (s : machine) (c : stmt) : option machine :=
  let '(m, os) := s in
  let put_in (o : option memory) : option machine := option_map (fun m' => (m', os)) o in
  match c with
  (* common/math/quat.h:33 *)
  | QNew w x y z => Some (add s (vals [w; x; y; z]) own_q)
  (* common/math/quat.h:37 *)
  | QCopy p => do a <- addr os p; do l <- rd m a 4; Some (add s (vals l) own_q)
  (* common/math/quat.h:35: arr_ looks at the temporary, which is gone after the statement;
     buf_ is not set *)
  | QOver l => do _ <- guard (length l =? 4)%nat; Some (m ++ raw4 ++ [Gone; Gone; Gone; Gone], os ++ [OQ (length m + 4)])
  (* common/math/quat.h:64 *)
  | QSet p i r => do a <- addr os p; do _ <- guard (i <? 4)%nat; put_in (put m (a + i) r)
  (* common/math/quat.h:138-142: elements() is a copy *)
  | QAssign p q => do a <- addr os p; do b <- addr os q; do l <- rd m b 4; put_in (wr m a l)
  | QMulEq p q => do a <- addr os p; do b <- addr os q; put_in (mul_eq m a b)
  (* common/math/quat.h:96-100 *)
  | QTimes p q => do a <- addr os p; do b <- addr os q; do k <- rd m a 4; do l <- rd m b 4; Some (add s (vals (times4 k l)) own_q)
  (* common/math/dquat.h:69-73 *)
  | DNew => Some (add s (vals [1; 0; 0; 0; 0; 0; 0; 0] ++ raw4 ++ raw4) own_d)
  | DScalars l => do _ <- guard (length l =? 8)%nat; Some (add s (vals l ++ vals one4 ++ vals one4) scalars_d)
  (* common/math/dquat.h:90-94 *)
  | DParts p q => do a <- addr os p; do b <- addr os q; do k <- rd m a 4; do l <- rd m b 4; Some (add s (vals (k ++ l) ++ raw4 ++ raw4) own_d)
  (* common/math/dquat.h:89 *)
  | DCopy x => do v <- daddr os x; let '(a, _, _) := v in do l <- rd m a 8; Some (add s (vals l ++ raw4 ++ raw4) own_d)
  (* common/math/dquat.h:104 *)
  | DSet x i r => do v <- daddr os x; let '(a, _, _) := v in do _ <- guard (i <? 8)%nat; put_in (put m (a + i) r)
  (* common/math/dquat.h:114-118 *)
  | DAssign x y => do v <- daddr os x; let '(a, _, _) := v in do w <- daddr os y; let '(b, _, _) := w in do l <- rd m b 8; put_in (wr m a l)
  (* common/math/dquat.h:110-111 *)
  | DSetReal x p => do v <- daddr os x; let '(_, r, _) := v in do b <- addr os p; do l <- rd m b 4; put_in (wr m r l)
  | DSetDual x p => do v <- daddr os x; let '(_, _, d) := v in do b <- addr os p; do l <- rd m b 4; put_in (wr m d l)
  (* common/math/dquat.h:113,129-135 *)
  | DTimes x y =>
      do v <- daddr os x; let '(_, r, d) := v in do w <- daddr os y; let '(_, r', d') := w in
      do a <- rd m r 4; do b <- rd m d 4; do a' <- rd m r' 4; do b' <- rd m d' 4;
      Some (add s (vals (times4 a a' ++ plus4 (times4 a b') (times4 b a')) ++ raw4 ++ raw4) own_d)
  (* models/imu_state.cxx:55 *)
  | ENew => Some (add s raw9 own_e)
  (* models/imu_state.h:14-19 *)
  | EOf l => do _ <- guard (length l =? 9)%nat; Some (add s (vals l) own_e)
  (* the copy constructor that the compiler writes: the numbers are copied, and the maps
     too, which then look at the numbers of the original (models/imu_state.h:10-32 declares none) *)
  | ECopy x => do v <- eaddr os x; let '(b, a, be, g) := v in do l <- rd m b 9; Some (add s (vals l) (fun n => OE n a be g))
  (* the assignment that the compiler writes: the numbers, then the numbers behind the maps *)
  | EAssign x y =>
      do v <- eaddr os x; let '(b, a, be, g) := v in do w <- eaddr os y; let '(b', a', be', g') := w in
      do l <- rd m b' 9; do m <- wr m b l;
      do l <- rd m a' 3; do m <- wr m a l;
      do l <- rd m be' 3; do m <- wr m be l;
      do l <- rd m g' 3; put_in (wr m g l)
  (* models/imu_state.h:25-31 *)
  | EAssignVec x l => do v <- eaddr os x; let '(b, _, _, _) := v in do _ <- guard (length l =? 9)%nat; put_in (wr m b l)
  | ESet x i r => do v <- eaddr os x; let '(b, _, _, _) := v in do _ <- guard (i <? 9)%nat; put_in (put m (b + i) r)
  (* models/imu_state.h:21-23 *)
  | ESetPart x p l => do v <- eaddr os x; do _ <- guard (length l =? 3)%nat; put_in (wr m (part_addr v p) l)
  end.
Fixpoint exec_all (s : machine) (p : list stmt) : option machine :=
  match p with nil => Some s | c :: k => do s' <- exec s c; exec_all s' k end.
(** A program *)
Definition run (p : list stmt) : option machine := exec_all (nil, nil) p.

(** What can be read of an object, [None] where reading is undefined: elements(); the
    eight numbers, real() and dual(); the nine numbers and the parts *)
Definition seen (m : memory) (o : object) : list (option (list R)) :=
  match o with
  | OQ a => [rd m a 4]
  | OD a r d => [rd m a 8; rd m r 4; rd m d 4]
  | OE b a be g => [rd m b 9; rd m a 3; rd m be 3; rd m g 3]
  end.
Definition see (s : machine) : list (list (option (list R))) := map (seen (fst s)) (snd s).
