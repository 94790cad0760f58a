(** Model of hstack, vstack, tile and modf of common/matrix_defs.h.

    A matrix is its sizes and its entries.  An entry of a dynamic matrix that has been
    allocated and not written is [None].  [ndebug] tells whether the program is built with
    NDEBUG, which removes assertions, those of Eigen as well.  The comma initializer is that
    of Eigen 3.3 (Eigen/src/Core/CommaInitializer.h).  Sizes do not overflow. *)
From Coq Require Import ZArith Arith Bool List.
From Flocq Require Import IEEE754.BinarySingleNaN.
From Verif Require Import Float64.
Import ListNotations.

Inductive result (A : Type) := Done (a : A) | Stopped | Undefined.
Arguments Done {A} a. Arguments Stopped {A}. Arguments Undefined {A}.
Definition andthen {A B} (r : result A) (f : A -> result B) : result B := match r with Done a => f a | Stopped => Stopped | Undefined => Undefined end.
(** assert and eigen_assert *)
Definition asserted {A} (ndebug : bool) (b : bool) (r : result A) : result A := if ndebug then r else if b then r else Stopped.

Section Entries.
Context {E : Type}.
Record mat := mkMat { rows : nat; cols : nat; entry : nat -> nat -> E }.
Record omat := mkO { orows : nat; ocols : nat; oentry : nat -> nat -> option E }.
(** Eigen::MatrixXd out(r, c): the entries are not initialised *)
Definition alloc (r c : nat) : omat := mkO r c (fun _ _ => None).
(** m.block(r, c, h, w), whose constructor asserts that it lies in m *)
Definition within (m : omat) (r c h w : nat) : bool := (r + h <=? orows m) && (c + w <=? ocols m).
(** m.block(r, c, b.rows(), b.cols()) = b *)
Definition write (ndebug : bool) (m : omat) (r c : nat) (b : mat) : result omat :=
  asserted ndebug (within m r c (rows b) (cols b))
    (if within m r c (rows b) (cols b) then
       Done (mkO (orows m) (ocols m) (fun i j => if (r <=? i) && (i <? r + rows b) && (c <=? j) && (j <? c + cols b) then Some (entry b (i - r) (j - c)) else oentry m i j))
     else Undefined).

(** CommaInitializer: the matrix, the next row and column, and the rows of the current block *)
Record comma := mkC { xpr : omat; crow : nat; ccol : nat; cblock : nat }.
(** CommaInitializer(xpr, other) *)
Definition comma_first (ndebug : bool) (m : omat) (a : mat) : result comma :=
  andthen (write ndebug m 0 0 a) (fun m' => Done (mkC m' 0 (cols a) (rows a))).
(** CommaInitializer::operator,(other) *)
Definition comma_next (ndebug : bool) (s : comma) (b : mat) : result comma :=
  let wrap := (ccol s =? ocols (xpr s)) && (negb (cols b =? 0) || negb (rows b =? cblock s)) in
  let r := if wrap then crow s + cblock s else crow s in let c := if wrap then 0 else ccol s in let k := if wrap then rows b else cblock s in
  asserted ndebug (negb wrap || (r + k <=? orows (xpr s)))
    (asserted ndebug (c + cols b <=? ocols (xpr s))
      (asserted ndebug (k =? rows b)
        (andthen (write ndebug (xpr s) r c b) (fun m => Done (mkC m r (c + cols b) k))))).
(** CommaInitializer::finished, called by the destructor *)
Definition comma_finished (ndebug : bool) (s : comma) : result omat :=
  asserted ndebug (((crow s + cblock s =? orows (xpr s)) || (ocols (xpr s) =? 0)) && (ccol s =? ocols (xpr s))) (Done (xpr s)).
(** out << a, b; *)
Definition comma_two (ndebug : bool) (m : omat) (a b : mat) : result omat :=
  andthen (comma_first ndebug m a) (fun s => andthen (comma_next ndebug s b) (comma_finished ndebug)).

(** matrix_defs.h:112-118 *)
Definition hstack (ndebug : bool) (a b : mat) : result omat :=
  asserted ndebug ((rows a =? rows b) && negb (rows a =? 0)) (comma_two ndebug (alloc (rows a) (cols a + cols b)) a b).
(** matrix_defs.h:120-126 *)
Definition vstack (ndebug : bool) (a b : mat) : result omat :=
  asserted ndebug ((cols a =? cols b) && negb (cols a =? 0)) (comma_two ndebug (alloc (rows a + rows b) (cols a)) a b).
(** matrix_defs.h:135: the block is made and nothing is assigned to it *)
Definition tile_block (ndebug : bool) (a : mat) (m : omat) (i j : nat) : result omat :=
  asserted ndebug (within m (i * rows a) (j * cols a) (rows a) (cols a)) (Done m).
(** matrix_defs.h:133-136 *)
Definition tile_row (ndebug : bool) (a : mat) (i hcopies : nat) (m : omat) : result omat :=
  fold_left (fun r j => andthen r (fun m => tile_block ndebug a m i j)) (seq 0 hcopies) (Done m).
(** matrix_defs.h:128-139 *)
Definition tile (ndebug : bool) (a : mat) (vcopies hcopies : nat) : result omat :=
  fold_left (fun r i => andthen r (tile_row ndebug a i hcopies)) (seq 0 vcopies) (Done (alloc (rows a * vcopies) (cols a * hcopies))).
End Entries.
Arguments mat : clear implicits. Arguments omat : clear implicits.

(** x.cast<int>(): undefined when the truncated value is not an int (the standard, conv.fpint) *)
Definition to_int (x : b64) : option Z :=
  if finite x then let z := Btrunc x in if ((- 2 ^ 31 <=? z) && (z <? 2 ^ 31))%Z then Some z else None else None.
(** x.cast<int>() of a vector *)
Fixpoint cast_int (x : list b64) : option (list Z) :=
  match x with
  | [] => Some []
  | a :: r => match to_int a, cast_int r with Some z, Some zs => Some (z :: zs) | _, _ => None end
  end.
(** the difference of two vectors of one length *)
Fixpoint minus (x y : list b64) : list b64 := match x, y with a :: r, b :: s => fsub a b :: minus r s | _, _ => [] end.
(** matrix_defs.h:188-195: what is returned and *intpart; [alias] tells that intpart is the
    address of x itself.  Entries are in the order in which they are stored. *)
Definition modf2 (alias : bool) (x : list b64) : option (list b64 * list b64) :=
  match cast_int x with
  | Some z => let intpart := map of_Z z in let x' := if alias then intpart else x in Some (minus x' intpart, intpart)
  | None => None
  end.
(** matrix_defs.h:197-206 *)
Definition modf1 (x : list b64) : option (list b64) :=
  match cast_int x with Some z => Some (minus x (map of_Z z)) | None => None end.
