(** Model of the symbolic algebra of the filter generator: core/ekf/ekf_gen/symb_matrix.py,
    symb_algebra.py and symb_block_matrix.py.

    [None] stands for an exception, an assertion that fails or a loop that does not end.
    Left out: subtraction and negative blocks (the generator makes none). A size variable
    has one maximum. Python's lists of terms are modified in place; here a changed list is
    a new value, which is the same as long as no block with terms occurs in two places. *)
From Coq Require Import String Ascii List Arith Bool.
Import ListNotations.
Local Open Scope string_scope.

(** Sizes: numbers, or variables with their maximum (BaseBlock.__init__, symb_matrix.py:5-26) *)
Inductive dim := Num (n : nat) | Var (s : string) (max : nat).
Definition dim_eqb (a b : dim) : bool :=
  match a, b with
  | Num n, Num m => Nat.eqb n m
  | Var s k, Var t l => String.eqb s t && Nat.eqb k l
  | _, _ => false
  end.
Definition one (d : dim) : bool := dim_eqb d (Num 1).

(** symb_matrix.py:95-132 (ConstBlock), 135-164 (Transpose), 167-256 (Mult), 259-301 (Add).
    Mult keeps its size, which pop_front and pop_back change, and its flag. *)
Inductive ex :=
| Const (name : string) (r c : dim)
| Trans (e : ex)
| Mult (r c : dim) (commutative : bool) (terms : list ex)
| Add (r c : dim) (terms : list ex).

Fixpoint rows (e : ex) : dim := match e with Const _ r _ => r | Trans b => cols b | Mult r _ _ _ => r | Add r _ _ => r end
with cols (e : ex) : dim := match e with Const _ _ c => c | Trans b => rows b | Mult _ c _ _ => c | Add _ c _ => c end.
Definition is_scalar (e : ex) : bool := one (rows e) && one (cols e).
Definition is_zero (e : ex) : bool := match e with Const n _ _ => String.eqb n "0" | _ => false end.
Definition is_identity (e : ex) : bool := match e with Const n _ _ => String.eqb n "I" | _ => false end.
Definition is_add (e : ex) : bool := match e with Add _ _ _ => true | _ => false end.
Definition is_mult (e : ex) : bool := match e with Mult _ _ _ _ => true | _ => false end.

(** __repr__ *)
Fixpoint repr (e : ex) : string :=
  match e with
  | Const n _ _ => n
  | Trans b => match b with Const n _ _ => n ++ ".T" | _ => "(" ++ repr b ++ ").T" end
  | Mult _ _ _ l => String.concat "*" (map (fun t => if is_add t then "(" ++ repr t ++ ")" else repr t) l)
  | Add _ _ l => String.concat " + " (map repr l)
  end.
(** What iterating over a block yields: for ever the block itself, if it is a Transpose. *)
Definition terms (e : ex) : option (list ex) :=
  match e with Const _ _ _ => Some [e] | Trans _ => None | Mult _ _ _ l => Some l | Add _ _ l => Some l end.
Definition len (e : ex) : nat := match e with Mult _ _ _ l => List.length l | Add _ _ l => List.length l | _ => 1 end.

Definition bind {A B} (o : option A) (f : A -> option B) : option B := match o with Some a => f a | None => None end.
Notation "'do' x <- a ; b" := (bind a (fun x => b)) (at level 200, x pattern, right associativity).
(** Short-circuit conjunction *)
Definition and_then (a : option bool) (b : option bool) : option bool := do x <- a; if x then b else Some false.

(** Equality of blocks: symb_matrix.py:117-120, 152-155, 220-232, 283-292.
    The operator in compares each item of the list with the element, item first.
    [isin] is the operator in on lists. *)
Section Equality.
  Variable eqb : ex -> ex -> option bool.
  Fixpoint isin (x : ex) (l : list ex) : option bool :=
    match l with [] => Some false | t :: r => do b <- eqb t x; if b then Some true else isin x r end.
  Fixpoint all_in (xs l : list ex) : option bool :=
    match xs with [] => Some true | x :: r => do b <- isin x l; do c <- all_in r l; Some (b && c) end.
  (** Add.__eq__ returns at the first term that is missing *)
  Fixpoint each_in (xs l : list ex) : option bool :=
    match xs with [] => Some true | x :: r => and_then (isin x l) (each_in r l) end.
  Fixpoint same_list (xs ys : list ex) : option bool :=
    match xs, ys with
    | [], [] => Some true
    | x :: xr, y :: yr => and_then (eqb x y) (same_list xr yr)
    | _, _ => Some false
    end.
End Equality.
Definition scalars (l : list ex) : list ex := filter is_scalar l.
Definition matrices (l : list ex) : list ex := filter (fun t => negb (is_scalar t)) l.
Fixpoint eqb (fuel : nat) (a b : ex) : option bool :=
  match fuel with
  | O => None
  | S f =>
      match a with
      | Const _ _ _ | Trans _ => Some (dim_eqb (rows a) (rows b) && dim_eqb (cols a) (cols b) && String.eqb (repr a) (repr b))
      | Mult _ _ true l =>
          do m <- terms b;
          and_then (Some (Nat.eqb (List.length (scalars l)) (List.length (scalars m))))
            (and_then (all_in (eqb f) (scalars l) (scalars m))
               (and_then (all_in (eqb f) (scalars m) (scalars l))
                  (if Nat.eqb (List.length (matrices l)) (List.length (matrices m)) then same_list (eqb f) (matrices l) (matrices m) else Some false)))
      | Mult _ _ false l =>
          match b with
          | Mult _ _ _ m => if Nat.eqb (List.length l) (List.length m) then same_list (eqb f) l m else Some false
          | _ => Some false
          end
      | Add _ _ l => match b with Add _ _ m => and_then (each_in (eqb f) m l) (each_in (eqb f) l m) | _ => Some false end
      end
  end.

(** ** Building blocks *)
Definition parts_mult (e : ex) : list ex := match e with Mult _ _ _ l => l | _ => [e] end.
Definition parts_add (e : ex) : list ex := match e with Add _ _ l => l | _ => [e] end.
Definition same_shape (a b : ex) : bool := dim_eqb (rows a) (rows b) && dim_eqb (cols a) (cols b).
(** Mult.__init__, symb_matrix.py:168-205 *)
Definition mkMult (a b : ex) : option ex :=
  do rcm <- (if is_scalar a then Some (rows b, cols b, true)
             else if is_scalar b then Some (rows a, cols a, true)
             else if dim_eqb (cols a) (rows b) then Some (rows a, cols b, false) else None);
  let '(r, c, m) := rcm in
  let l := (parts_mult a ++ parts_mult b)%list in
  match matrices l with
  | [] => None
  | t :: _ => if dim_eqb r (rows t) && dim_eqb c (cols (List.last l t)) then Some (Mult r c m l) else None
  end.
(** Add.__init__, symb_matrix.py:260-275 *)
Definition mkAdd (a b : ex) : option ex :=
  if same_shape a b then Some (Add (rows a) (cols a) (parts_add a ++ parts_add b)%list) else None.
(** BaseBlock.__add__ and __mul__, symb_matrix.py:28-36 and 43-56; T, 85-92 *)
Definition add (a b : ex) : option ex :=
  if negb (same_shape a b) then None else if is_zero a then Some b else if is_zero b then Some a else mkAdd a b.
Definition mul (a b : ex) : option ex :=
  if is_zero a || is_zero b then
    Some (Const "0" (if is_scalar a then rows b else rows a) (if is_scalar b then cols a else cols b))
  else if is_identity a && negb (is_scalar b) then Some b
  else if is_identity b && negb (is_scalar a) then Some a
  else mkMult a b.
Definition transpose (e : ex) : ex :=
  if is_zero e then Const "0" (cols e) (rows e) else if is_identity e || is_scalar e then e else Trans e.

(** ** Block matrices (symb_block_matrix.py): lists of rows *)
Definition bmat := list (list ex).
Fixpoint map2o (f : ex -> ex -> option ex) (a b : list ex) : option (list ex) :=
  match a, b with
  | x :: xs, y :: ys => do z <- f x y; do zs <- map2o f xs ys; Some (z :: zs)
  | _, _ => Some []
  end.
Fixpoint mapo {A B} (f : A -> option B) (l : list A) : option (list B) :=
  match l with [] => Some [] | x :: r => do y <- f x; do ys <- mapo f r; Some (y :: ys) end.
(** add_impl, symb_block_matrix.py:60-86 *)
Fixpoint badd (a b : bmat) : option bmat :=
  match a, b with
  | x :: xs, y :: ys => do z <- map2o add x y; do zs <- badd xs ys; Some (z :: zs)
  | _, _ => Some []
  end.
(** scalar_multiply, symb_block_matrix.py:94-101 *)
Definition bscale (s : ex) (a : bmat) : option bmat := mapo (mapo (mul s)) a.
(** __mul__, symb_block_matrix.py:103-125 *)
Fixpoint accumulate (acc : ex) (xs ys : list ex) : option ex :=
  match xs, ys with
  | x :: xr, y :: yr => do p <- mul x y; do acc' <- add acc p; accumulate acc' xr yr
  | _, _ => Some acc
  end.
Definition column (b : bmat) (c : nat) : list ex := map (fun row => nth c row (Const "0" (Num 1) (Num 1))) b.
Definition bmul (a b : bmat) : option bmat :=
  mapo (fun row =>
    mapo (fun c =>
      match row, column b c with
      | x :: _, y :: _ => accumulate (Const "0" (rows x) (cols y)) row (column b c)
      | _, _ => None
      end) (seq 0 (match b with [] => 0 | r :: _ => List.length r end))) a.
(** T, symb_block_matrix.py:133-141 *)
Definition btr (a : bmat) : bmat :=
  map (fun c => map transpose (column a c)) (seq 0 (match a with [] => 0 | r :: _ => List.length r end)).

(** The discretised Jacobians and the propagated covariance of block_sparse_propagate_covariance,
    ekf_gen_matrix_manip.py:309-310 and 320, from the blocks; [bidentity] is
    create_symbolic_identity, 154-176. *)
Definition bidentity (ds : list dim) : bmat :=
  map (fun r => map (fun c => if Nat.eqb r c then Const "I" (nth r ds (Num 1)) (nth r ds (Num 1)) else Const "0" (nth r ds (Num 1)) (nth c ds (Num 1))) (seq 0 (List.length ds)))
    (seq 0 (List.length ds)).
Definition abar (i a : bmat) (dt half : ex) : option bmat :=
  do a1 <- bscale dt a; do s <- badd i a1;
  do aa <- bmul a a; do x1 <- bscale dt aa; do x2 <- bscale dt x1; do x3 <- bscale half x2;
  badd s x3.
Definition bbar (i a b : bmat) (dt half : ex) : option bmat :=
  do a1 <- bscale dt a; do a2 <- bscale half a1; do s <- badd i a2; do p <- bmul s b; bscale dt p.
Definition pout (a p b q : bmat) : option bmat :=
  do x <- bmul a p; do y <- bmul x (btr a); do u <- bmul b q; do v <- bmul u (btr b); badd y v.

(** ** Simplification (symb_algebra.py) *)
Definition digit (n : nat) : string := String (Ascii.ascii_of_nat (48 + n)) "".
Fixpoint decimal (fuel n : nat) : string :=
  match fuel with
  | O => ""
  | S f => if Nat.ltb n 10 then digit n else decimal f (n / 10) ++ digit (n mod 10)
  end.
Definition count_block (n : nat) : ex := Const (decimal (S n) n) (Num 1) (Num 1).

(** factor, symb_algebra.py:4-17. [equal_positions] are the positions j <> i of terms equal to t. *)
Fixpoint equal_positions (fuel : nat) (t : ex) (i j : nat) (l : list ex) : option (list bool) :=
  match l with
  | [] => Some []
  | u :: r =>
      do b <- (if Nat.eqb i j then Some false else eqb fuel t u);
      do bs <- equal_positions fuel t i (S j) r;
      Some (b :: bs)
  end.
Fixpoint drop_marked (l : list ex) (m : list bool) : list ex :=
  match l, m with x :: xs, b :: bs => if b then drop_marked xs bs else x :: drop_marked xs bs | _, _ => l end.
Fixpoint set_nth (i : nat) (x : ex) (l : list ex) : list ex :=
  match i, l with O, _ :: r => x :: r | S k, y :: r => y :: set_nth k x r | _, [] => [] end.
Fixpoint factor_loop (fuel rounds i : nat) (l : list ex) : option (list ex) :=
  match rounds with
  | O => None
  | S k =>
      match nth_error l i with
      | None => Some l
      | Some t =>
          do marks <- equal_positions fuel t i 0 l;
          let n := S (List.length (filter (fun b => b) marks)) in
          if Nat.ltb 1 n then
            do t' <- mul (count_block n) t;
            factor_loop fuel k (S i) (drop_marked (set_nth i t' l) marks)
          else factor_loop fuel k (S i) l
      end
  end.

(** strip_scalar, symb_algebra.py:21-32: the scalar and the rest *)
Fixpoint take_first (fuel : nat) (s : ex) (pre l : list ex) : option (ex * list ex) :=
  match l with
  | [] => None
  | t :: r =>
      do b <- eqb fuel t s;
      if b then (if is_add t then None else Some (t, rev_append pre r)) else take_first fuel s (t :: pre) r
  end.
Definition identity (d : dim) : option ex := match d with Num _ => Some (Const "I" d d) | Var _ _ => None end.
Definition strip_scalar (fuel : nat) (s : ex) (e : ex) : option (ex * ex) :=
  match e with
  | Mult r c m l =>
      do fr <- take_first fuel s [] l;
      let '(t, rest) := fr in
      match l, rest with
      | [_], _ => do i <- identity (rows t); Some (e, i)
      | [_; _], [u] => Some (t, u)
      | _, _ => Some (t, Mult r c m rest)
      end
  | _ => None
  end.
(** same_scalar_term, symb_algebra.py:34-39 *)
Fixpoint first_in (fuel : nat) (l ss : list ex) : option (option ex) :=
  match l with
  | [] => Some None
  | t :: r => do b <- isin (eqb fuel) t ss; if b then Some (Some t) else first_in fuel r ss
  end.
Definition same_scalar_term (fuel : nat) (a b : list ex) : option (option ex) := first_in fuel b (scalars a).

(** The outcome of going through the terms behind position i: the terms are down to one, or go on *)
Inductive pass := Collapsed (m : ex) | Open (t : ex) (others : list ex).

(** factor_scalars, symb_algebra.py:41-67. [changed] is the flag modified. *)
Section Scalars.
  Variables (fuel : nat) (again : ex -> option ex).
  Fixpoint scalars_inner (pre : nat) (ti : ex) (mid rest : list ex) (changed : bool) : option (pass * bool) :=
    match rest with
    | [] => Some (Open ti (rev mid), changed)
    | tj :: rest' =>
        match ti, tj with
        | Mult _ _ _ li, Mult _ _ _ lj =>
            do so <- same_scalar_term fuel li lj;
            match so with
            | Some s =>
                do fi <- strip_scalar fuel s ti;
                do fj <- strip_scalar fuel s tj;
                do a <- mkAdd (snd fi) (snd fj);
                do inner <- again a;
                do m <- mkMult (fst fi) inner;
                match pre, mid, rest' with
                | O, [], [] => Some (Collapsed m, true)
                | _, _, _ => scalars_inner pre m mid rest' true
                end
            | None => scalars_inner pre ti (tj :: mid) rest' changed
            end
        | _, _ => scalars_inner pre ti (tj :: mid) rest' changed
        end
    end.
  Fixpoint scalars_outer (rounds : nat) (pre l : list ex) (changed : bool) : option (pass * bool) :=
    match rounds with
    | O => None
    | S k =>
        match l with
        | [] => match rev pre with t :: r => Some (Open t r, changed) | [] => None end
        | ti :: rest =>
            do oc <- scalars_inner (List.length pre) ti [] rest changed;
            match oc with
            | (Collapsed m, ch) => Some (Collapsed m, ch)
            | (Open t' rest', ch) => scalars_outer k (t' :: pre) rest' ch
            end
        end
    end.
End Scalars.
Fixpoint factor_scalars (fuel : nat) (e : ex) : option ex :=
  match fuel with
  | O => None
  | S f =>
      match e with
      | Add r c l =>
          (* terms of a product are no products: once down to one term nothing more happens *)
          do oc <- scalars_outer f (factor_scalars f) (S (List.length l)) [] l false;
          match oc with
          | (Collapsed m, _) => Some m
          | (Open t rest, true) => factor_scalars f (Add r c (t :: rest))
          | (Open t rest, false) => Some (Add r c (t :: rest))
          end
      | _ => Some e
      end
  end.

(** pop_front and pop_back, symb_matrix.py:240-256 *)
Fixpoint pop_first (pre l : list ex) : option (ex * list ex) :=
  match l with
  | [] => None
  | t :: r => if is_scalar t then pop_first (t :: pre) r else Some (t, rev_append pre r)
  end.
Definition pop_last (l : list ex) : option (ex * list ex) :=
  do p <- pop_first [] (rev l); Some (fst p, rev (snd p)).
(** strip_first_term, symb_algebra.py:71-81 *)
Definition strip_first_term (e : ex) : option (ex * ex) :=
  if Nat.eqb (len e) 1 then Some (e, Const "I" (cols e) (cols e))
  else match e with
  | Mult _ _ _ [a; b] => Some (a, b)
  | Mult r c m l => do p <- pop_first [] l; Some (fst p, Mult (cols (fst p)) c m (snd p))
  | _ => None
  end.
(** same_first_term, symb_algebra.py:83-88 *)
Definition same_first_term (fuel : nat) (a b : ex) : option bool :=
  do la <- terms a; do lb <- terms b;
  match matrices la, matrices lb with
  | x :: _, y :: _ => eqb fuel x y
  | _, _ => None
  end.

(** factor_first_term, symb_algebra.py:90-112 *)
Section FirstTerm.
  Variables (fuel : nat) (again : ex -> option ex).
  Fixpoint first_inner (pre : nat) (ti : ex) (mid rest : list ex) : option pass :=
    match rest with
    | [] => Some (Open ti (rev mid))
    | tj :: rest' =>
        if is_add ti || is_add tj then first_inner pre ti (tj :: mid) rest'
        else
          do b <- same_first_term fuel ti tj;
          if b then
            do fi <- strip_first_term ti;
            do fj <- strip_first_term tj;
            do a <- mkAdd (snd fi) (snd fj);
            do inner <- again a;
            do m <- mkMult (fst fi) inner;
            match pre, mid, rest' with
            | O, [], [] => Some (Collapsed m)
            | _, _, _ => first_inner pre m mid rest'
            end
          else first_inner pre ti (tj :: mid) rest'
    end.
  Fixpoint first_outer (rounds : nat) (pre l : list ex) : option pass :=
    match rounds with
    | O => None
    | S k =>
        match l with
        | [] => match rev pre with t :: r => Some (Open t r) | [] => None end
        | ti :: rest =>
            do o <- first_inner (List.length pre) ti [] rest;
            match o with Collapsed m => Some (Collapsed m) | Open t' rest' => first_outer k (t' :: pre) rest' end
        end
    end.
  (** Once the sum is down to one product the loops go on over the terms of the product, with
      t_i the product itself at first. Two terms that compare equal then make a product that
      contains itself, or a sum I + I that is factored for ever, or an exception. *)
  Fixpoint no_equal (t : ex) (l : list ex) : option bool :=
    match l with
    | [] => Some true
    | u :: r => if is_add t || is_add u then no_equal t r else do b <- same_first_term fuel t u; if b then None else no_equal t r
    end.
  Fixpoint no_equals (l : list ex) : option bool :=
    match l with [] => Some true | t :: r => do _ <- no_equal t r; no_equals r end.
  Definition go_on (m : ex) : option ex :=
    do l <- terms m;
    match l with
    | [] => Some m
    | _ :: r => do _ <- no_equal m r; do _ <- no_equals r; Some m
    end.
End FirstTerm.
Definition rebuild (e : ex) (l : list ex) : ex :=
  match e with Add r c _ => Add r c l | Mult r c m _ => Mult r c m l | _ => e end.
Fixpoint factor_first_term (fuel : nat) (e : ex) : option ex :=
  match fuel with
  | O => None
  | S f =>
      match e with
      | Add _ _ l | Mult _ _ _ l =>
          do o <- first_outer f (factor_first_term f) (S (List.length l)) [] l;
          match o with
          | Collapsed m => go_on f m
          | Open t rest => Some (rebuild e (t :: rest))
          end
      | _ => Some e
      end
  end.

(** strip_last_term, symb_algebra.py:116-126 *)
Definition strip_last_term (e : ex) : option (ex * ex) :=
  if Nat.eqb (len e) 1 then do i <- identity (rows e); Some (i, e)
  else match e with
  | Mult _ _ _ [a; b] => Some (a, b)
  | Mult r c m l => do p <- pop_last l; Some (Mult r (rows (fst p)) m (snd p), fst p)
  | _ => None
  end.
(** same_last_term, symb_algebra.py:128-133 *)
Definition same_last_term (fuel : nat) (a b : ex) : option bool :=
  do la <- terms a; do lb <- terms b;
  match rev (matrices la), rev (matrices lb) with
  | x :: _, y :: _ => eqb fuel x y
  | _, _ => None
  end.
(** factor_last_term, symb_algebra.py:135-158 *)
Section LastTerm.
  Variable fuel : nat.
  Fixpoint last_inner (pre : nat) (ti : ex) (mid rest : list ex) : option pass :=
    match rest with
    | [] => Some (Open ti (rev mid))
    | tj :: rest' =>
        if is_add ti || is_add tj then last_inner pre ti (tj :: mid) rest'
        else
          do b <- same_last_term fuel ti tj;
          if b then
            do fi <- strip_last_term ti;
            do fj <- strip_last_term tj;
            do a <- mkAdd (fst fi) (fst fj);
            do m <- mkMult a (snd fi);
            match pre, mid, rest' with
            | O, [], [] => Some (Collapsed m)
            | _, _, _ => last_inner pre m mid rest'
            end
          else last_inner pre ti (tj :: mid) rest'
    end.
  Fixpoint last_outer (rounds : nat) (pre l : list ex) : option pass :=
    match rounds with
    | O => None
    | S k =>
        match l with
        | [] => match rev pre with t :: r => Some (Open t r) | [] => None end
        | ti :: rest =>
            do o <- last_inner (List.length pre) ti [] rest;
            match o with Collapsed m => Some (Collapsed m) | Open t' rest' => last_outer k (t' :: pre) rest' end
        end
    end.
  Definition factor_last_term (e : ex) : option ex :=
    match e with
    | Add _ _ l | Mult _ _ _ l =>
        do o <- last_outer (S (List.length l)) [] l;
        match o with Collapsed m => Some m | Open t rest => Some (rebuild e (t :: rest)) end
    | _ => Some e
    end.
End LastTerm.

(** combine_factors and reduce, symb_algebra.py:165-185 *)
Definition combine_factors (fuel : nat) (e : ex) : option ex :=
  do e1 <- factor_scalars fuel e;
  do e2 <- factor_first_term fuel e1;
  factor_last_term fuel e2.
Section Inside.
  Variable again : ex -> option ex.
  Definition reduce_add (t : ex) : option ex := if is_add t then again t else Some t.
  Definition reduce_term (t : ex) : option ex :=
    match t with
    | Add _ _ _ => again t
    | Mult r c m l => do l' <- mapo reduce_add l; Some (Mult r c m l')
    | _ => Some t
    end.
End Inside.
Fixpoint reduce (fuel : nat) (e : ex) : option ex :=
  match fuel with
  | O => None
  | S f =>
      match e with
      | Add r c l =>
          do l1 <- factor_loop f (S (List.length l)) 0 l;
          do e2 <- combine_factors f (Add r c l1);
          match e2 with
          | Add _ _ l2 | Mult _ _ _ l2 => do l3 <- mapo (reduce_term (reduce f)) l2; Some (rebuild e2 l3)
          | _ => Some e2
          end
      | _ => Some e
      end
  end.
