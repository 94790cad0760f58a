(** Model of core/solver/lambda.cxx (integer least squares by the LAMBDA method) over the
    real numbers: rounding is left out.  Matrices and vectors are functions of their
    indices; an assignment makes a new function.  Doubles that only ever hold integers
    (Z, mu, zcond, step, a_fixed) are integers.  The checks of matching sizes at the head
    of each function hold for the callers in lambda.cxx and are left out. *)
From Coq Require Import Reals ZArith List.
From Verif Require Import LinSpec.
Import ListNotations.
Local Open Scope R_scope.

(** A loop that has not ended after the given number of rounds, an operation without a
    defined result, the end of the process by a failed check, or a result *)
Inductive res (A : Type) := Going | Undefined | Exit | Done (a : A).
Arguments Going {A}. Arguments Undefined {A}. Arguments Exit {A}. Arguments Done {A} a.
Definition bind {A B} (x : res A) (f : A -> res B) : res B :=
  match x with Going => Going | Undefined => Undefined | Exit => Exit | Done a => f a end.

(** std::round: to the nearest integer, halves away from zero *)
Definition rnd (x : R) : Z := if Rle_dec 0 x then Int_part (x + / 2) else (- Int_part (- x + / 2))%Z.
(** Conversion to int: towards zero *)
Definition trunc (x : R) : Z := if Rle_dec 0 x then Int_part x else (- Int_part (- x))%Z.

Definition set1 {A} (x : nat -> A) (i : nat) (v : A) : nat -> A := fun j => if Nat.eqb j i then v else x j.

(** lambda.cxx:14-42.  [m] rows (0 .. m-1) are still to be treated; [Q] is the working copy,
    whose rows above the diagonal are never read.  Row i of L is divided by sqrt(Q(i,i)),
    used to update the rows j < i of Q, and then divided by its last entry.  A
    pivot that is not positive is stored in D (line 32), so that the check of line 41
    ends the process, whatever the rows computed after it are. *)
Fixpoint ltdl_loop (m : nat) (Q L : lmat) (D : lvec) : res (lmat * lvec) :=
  match m with
  | O => Done (L, D)
  | S i =>
      if Rlt_dec 0 (Q i i) then
        let L1 : lmat := fun r c => if Nat.eqb r i then if Nat.leb c i then Q i c / sqrt (Q i i) else L r c else L r c in
        let Q1 : lmat := fun r c => if Nat.ltb r i then if Nat.leb c r then Q r c - L1 i c * L1 i r else Q r c else Q r c in
        let L2 : lmat := fun r c => if Nat.eqb r i then if Nat.leb c i then L1 i c / L1 i i else L1 r c else L1 r c in
        ltdl_loop i Q1 L2 (set1 D i (Q i i))
      else Exit
  end.
Definition LTDL (N : nat) (Q : lmat) : res (lmat * lvec) := ltdl_loop N Q (fun _ _ => 0) (fun _ => 0).

(** The matrices and the vector that the reduction changes *)
Record red := Red { rL : lmat; rD : lvec; ra : lvec; rZ : nat -> nat -> Z }.

(** lambda.cxx:74-91 *)
Definition igt (N i j : nat) (s : red) : red :=
  let mu := rnd (rL s i j) in
  if Z.eqb mu 0 then s
  else Red (fun r c => if andb (Nat.eqb c j) (Nat.leb i r) then rL s r j - IZR mu * rL s r i else rL s r c)
           (rD s)
           (set1 (ra s) j (ra s j - IZR mu * ra s i))
           (fun r c => if Nat.eqb c j then (rZ s r j - mu * rZ s r i)%Z else rZ s r c).

(** Exchange of the indices k and k+1 *)
Definition tau (k c : nat) : nat := if Nat.eqb c k then S k else if Nat.eqb c (S k) then k else c.

(** lambda.cxx:93-119.  [delta] is positive in the only call. *)
Definition permute (k : nat) (delta : R) (s : red) : red :=
  let L := rL s in let D := rD s in
  let lambda := D (S k) * L (S k) k / delta in
  let eta := D k / delta in
  Red (fun r c =>
         if Nat.ltb c k then
           if Nat.eqb r k then - L (S k) k * L k c + L (S k) c
           else if Nat.eqb r (S k) then eta * L k c + lambda * L (S k) c
           else L r c
         else if andb (Nat.eqb r (S k)) (Nat.eqb c k) then lambda
         else if Nat.leb (k + 2) r then L r (tau k c)
         else L r c)
      (set1 (set1 D k (eta * D (S k))) (S k) delta)
      (fun i => ra s (tau k i))
      (fun r c => rZ s r (tau k c)).

(** lambda.cxx:152-155: columns k+1 .. N-1 taken off column k; [c] of them are left *)
Fixpoint igts (N k c : nat) (s : red) : red :=
  match c with O => s | S c' => igts N k c' (igt N (N - c) k s) end.

(** lambda.cxx:147-164 from the value [k] of the counter; the second component is the
    index at which columns were exchanged, if any *)
Fixpoint pass (N k k1 : nat) (s : red) : red * option nat :=
  match k with
  | O => (s, None)
  | S k' =>
      let s1 := if Nat.leb k' k1 then igts N k' (N - S k') s else s in
      let delta := rD s1 k' + rL s1 k k' * rL s1 k k' * rD s1 k in
      if Rlt_dec delta (rD s1 k) then (permute k' delta s1, Some k') else pass N k' k1 s1
  end.
(** lambda.cxx:143-165 *)
Fixpoint reduce_loop (rounds N k1 : nat) (s : red) : res red :=
  match rounds with
  | O => Going
  | S n => match pass N (N - 1) k1 s with
           | (s', None) => Done s'
           | (s', Some k) => reduce_loop n N k s'
           end
  end.
(** lambda.cxx:121-166.  For N < 2 the initial k1 = N - 2 is not used. *)
Definition reduction (rounds N : nat) (Q : lmat) (a : lvec) : res red :=
  bind (LTDL N Q) (fun ld =>
    reduce_loop rounds N (N - 2) (Red (fst ld) (snd ld) a (fun r c => if Nat.eqb r c then 1%Z else 0%Z))).

(** ** The search *)

(** Its variables; [cnt] is count + 1, the number of candidates stored first *)
Record srch := Srch {
  sk : nat; sleft : R; sdist : lvec; sacond : lvec; szcond : nat -> Z; sstep : nat -> Z; sS : lmat;
  scols : nat -> nat -> Z; (** candidate, component *)
  snorms : lvec; scnt : nat; simax : nat; schi : R }.

(** defs.h:34-37 *)
Definition sgn (x : R) : Z := if Rle_dec 0 x then 1%Z else (-1)%Z.
Definition sgnz (x : Z) : Z := if Z.leb 0 x then 1%Z else (-1)%Z.
(** lambda.cxx:200-205 and 227-232 *)
Definition first_step (left : R) : Z := if Z.eqb (sgn left) 0 then 1%Z else sgn left.

(** Eigen's maxCoeff(&imax): the first index of a largest entry *)
Fixpoint imax_of (n : nat) (x : lvec) : nat :=
  match n with
  | O => O
  | S m => match m with O => O | _ => let j := imax_of m x in if Rlt_dec (x j) (x m) then m else j end
  end.

(** lambda.cxx:180-210 *)
Definition search_init (n nc : nat) (ahat : lvec) : srch :=
  let e := (n - 1)%nat in
  let ac := ahat e in let zc := rnd ac in
  Srch e (ac - IZR zc) (fun _ => 0) (set1 (fun _ => 0) e ac) (set1 (fun _ => 0%Z) e zc)
       (set1 (fun _ => 0%Z) e (first_step (ac - IZR zc))) (fun _ _ => 0)
       (fun _ _ => 0%Z) (fun _ => 0) 0 (nc - 1) 1e18.

(** lambda.cxx:252-254 and 267-269: the next integer at level k *)
Definition advance (k : nat) (s : srch) : srch :=
  let zc := (szcond s k + sstep s k)%Z in
  Srch k (sacond s k - IZR zc) (sdist s) (sacond s) (set1 (szcond s) k zc)
       (set1 (sstep s) k (- sstep s k - sgnz (sstep s k))%Z) (sS s)
       (scols s) (snorms s) (scnt s) (simax s) (schi s).

(** lambda.cxx:212-272: one round of the loop; [None] when the search is over *)
Definition search_step (n nc : nat) (ahat : lvec) (L : lmat) (D : lvec) (s : srch) : option srch :=
  let k := sk s in
  let newdist := sdist s k + sleft s * sleft s / D k in
  if Rlt_dec newdist (schi s) then
    match k with
    | S k' =>
        let S' : lmat := fun r c => if andb (Nat.eqb r k') (Nat.leb c k')
                                    then sS s k c + (IZR (szcond s k) - sacond s k) * L k c else sS s r c in
        let ac := ahat k' + S' k' k' in let zc := rnd ac in
        Some (Srch k' (ac - IZR zc) (set1 (sdist s) k' newdist) (set1 (sacond s) k' ac) (set1 (szcond s) k' zc)
                   (set1 (sstep s) k' (first_step (ac - IZR zc))) S'
                   (scols s) (snorms s) (scnt s) (simax s) (schi s))
    | O =>
        let s1 :=
          if Nat.ltb (scnt s) (nc - 1) then
            Srch k (sleft s) (sdist s) (sacond s) (szcond s) (sstep s) (sS s)
                 (set1 (scols s) (scnt s) (szcond s)) (set1 (snorms s) (scnt s) newdist) (S (scnt s)) (simax s) (schi s)
          else
            let nrm := set1 (snorms s) (simax s) newdist in
            let im := imax_of nc nrm in
            Srch k (sleft s) (sdist s) (sacond s) (szcond s) (sstep s) (sS s)
                 (set1 (scols s) (simax s) (szcond s)) nrm (scnt s) im (nrm im) in
        Some (advance 0 s1)
    end
  else if Nat.eqb k (n - 1) then None
  else Some (advance (S k) s).
Fixpoint search_loop (rounds n nc : nat) (ahat : lvec) (L : lmat) (D : lvec) (s : srch) : res srch :=
  match rounds with
  | O => Going
  | S r => match search_step n nc ahat L D s with
           | None => Done s
           | Some s' => search_loop r n nc ahat L D s'
           end
  end.

(** matrix_defs.h:170-186.  The pairs (index, value) sorted by value; std::sort does not fix
    the order of equal values, here they stay in order.  The entry for an index is its place in the
    sorted list. *)
Fixpoint insert (p : nat * R) (l : list (nat * R)) : list (nat * R) :=
  match l with
  | [] => [p]
  | q :: l' => if Rlt_dec (snd p) (snd q) then p :: l else q :: insert p l'
  end.
Definition sorted_pairs (n : nat) (x : lvec) : list (nat * R) :=
  fold_left (fun l i => insert (i, x i) l) (seq 0 n) [].
Fixpoint place (i : nat) (l : list (nat * R)) : nat :=
  match l with [] => O | q :: l' => if Nat.eqb (fst q) i then O else S (place i l') end.
Definition argsort (n : nat) (x : lvec) (i : nat) : nat := place i (sorted_pairs n x).
(** Eigen's permutation matrix times a vector: entry i goes to place order(i) *)
Definition permuted {A} (n : nat) (order : nat -> nat) (x : nat -> A) (p : nat) : A :=
  match find (fun i => Nat.eqb (order i) p) (seq 0 n) with Some i => x i | None => x p end.

(** lambda.cxx:168-279.  No components or no candidates wanted: elements with index -1. *)
Definition search (rounds n nc : nat) (ahat : lvec) (L : lmat) (D : lvec) : res ((nat -> nat -> Z) * lvec) :=
  if orb (Nat.eqb n 0) (Nat.eqb nc 0) then Undefined
  else bind (search_loop rounds n nc ahat L D (search_init n nc ahat)) (fun s =>
    let order := argsort nc (snorms s) in
    Done (permuted nc order (scols s), permuted nc order (snorms s))).

(** matrix_defs.h:188-195: the conversion to int has no defined result outside the range of
    int.  The integer and the fractional parts. *)
Definition int_range (x : R) : Prop := (- 2 ^ 31 <= trunc x < 2 ^ 31)%Z.
Definition int_range_b (x : R) : bool := andb (Z.leb (- 2 ^ 31) (trunc x)) (Z.ltb (trunc x) (2 ^ 31)).
Definition modf (n : nat) (a : lvec) : res ((nat -> Z) * lvec) :=
  if forallb (fun i => int_range_b (a i)) (seq 0 n)
  then Done (fun i => trunc (a i), fun i => a i - IZR (trunc (a i))) else Undefined.

Fixpoint zsum (n : nat) (f : nat -> Z) : Z := match n with O => 0%Z | S m => (zsum m f + f m)%Z end.

(** lambda.cxx:44-72; [inv] is Eigen's MatrixXd::inverse().  With fewer than two candidates the norm
    of index 1 is out of range. *)
Definition lambda (rounds n nc : nat) (inv : lmat -> lmat) (a : lvec) (Q : lmat) : res ((nat -> Z) * R) :=
  bind (modf n a) (fun ia =>
  bind (reduction rounds n Q (snd ia)) (fun s =>
  bind (search rounds n nc (ra s) (rL s) (rD s)) (fun cn =>
  if Nat.ltb nc 2 then Undefined
  else
    let Zinv := fun i j => rnd (inv (fun r c => IZR (rZ s r c)) i j) in
    Done (fun i => (zsum n (fun j => Zinv j i * fst cn 0%nat j) + fst ia i)%Z, snd cn 0%nat / snd cn 1%nat)))).
