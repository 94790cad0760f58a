(** What symbolic blocks and block matrices mean, as matrices of real numbers. *)
From Coq Require Import String Ascii List Arith Bool Reals.
From Verif Require Import LinSpec SymModel.
Import ListNotations.
Local Open Scope R_scope.

(** Values of the size variables and of the named blocks *)
Record env := { vsize : string -> nat; val : string -> lmat }.
Definition sz (E : env) (d : dim) : nat := match d with Num n => n | Var s _ => vsize E s end.

Definition named (E : env) (n : string) : lmat :=
  if String.eqb n "0" then fun _ _ => 0 else if String.eqb n "I" then lid else val E n.

(** The matrix an expression stands for: 1 x 1 factors of a product scale it, the others are multiplied in order. *)
Fixpoint eval (E : env) (e : ex) {struct e} : lmat :=
  match e with
  | Const n _ _ => named E n
  | Trans b => ltr (eval E b)
  | Mult _ _ _ l =>
      fun i j =>
        (fix scale l := match l with [] => 1 | t :: r => (if is_scalar t then eval E t 0%nat 0%nat else 1) * scale r end) l *
        (fix chain l := match l with [] => lid | t :: r => if is_scalar t then chain r else lmm (sz E (cols t)) (eval E t) (chain r) end) l i j
  | Add _ _ l => fun i j => (fix total l := match l with [] => 0 | t :: r => eval E t i j + total r end) l
  end.

(** Consecutive factors of a product fit, from r rows to c columns *)
Fixpoint path (r : dim) (l : list ex) (c : dim) : Prop :=
  match l with [] => r = c | t :: k => rows t = r /\ path (cols t) k c end.

(** Sizes fit everywhere in an expression *)
Fixpoint typed (e : ex) : Prop :=
  match e with
  | Const n r c => n = "I"%string -> r = c
  | Trans b => typed b
  | Mult r c _ l =>
      (fix all l := match l with [] => True | t :: k => typed t /\ all k end) l /\ matrices l <> [] /\ path r (matrices l) c
  | Add r c l => (fix all l := match l with [] => True | t :: k => (typed t /\ rows t = r /\ cols t = c) /\ all k end) l
  end.

(** A block matrix with block rows of sizes [rs] and block columns of sizes [cs] *)
Definition shaped (rs cs : list dim) (m : bmat) : Prop :=
  Forall2 (fun r row => Forall2 (fun c e => typed e /\ rows e = r /\ cols e = c) cs row) rs m.

(** The full matrix: which block an index falls in, and where in the block *)
Fixpoint locate (ns : list nat) (i : nat) : nat * nat :=
  match ns with
  | [] => (0%nat, i)
  | n :: r => if (i <? n)%nat then (0%nat, i) else let p := locate r (i - n) in (S (fst p), snd p)
  end.
Definition total (ns : list nat) : nat := fold_right Nat.add 0%nat ns.
Definition block (m : bmat) (r c : nat) : ex := nth c (nth r m []) (Const "0" (Num 1) (Num 1)).
Definition dense (E : env) (rs cs : list dim) (m : bmat) : lmat :=
  fun i j =>
    let p := locate (map (sz E) rs) i in
    let q := locate (map (sz E) cs) j in
    eval E (block m (fst p) (fst q)) (snd p) (snd q).

(** The products of named blocks that remain when everything is multiplied out *)
Definition lprod (a b : list (list ex)) : list (list ex) := flat_map (fun x => map (fun y => (x ++ y)%list) b) a.
Fixpoint monomials (e : ex) : list (list ex) :=
  match e with
  | Const n _ _ => if String.eqb n "I" then [[]] else [[e]]
  | Trans _ => [[e]]
  | Mult _ _ _ l => (fix all l := match l with [] => [[]] | t :: r => lprod (monomials t) (all r) end) l
  | Add _ _ l => (fix all l := match l with [] => [] | t :: r => (monomials t ++ all r)%list end) l
  end.

(** Names without the signs that printed expressions use *)
Fixpoint plain_chars (s : string) : Prop :=
  match s with
  | EmptyString => True
  | String c r => c <> "*"%char /\ c <> " "%char /\ c <> "("%char /\ c <> "."%char /\ plain_chars r
  end.
Definition plain (s : string) : Prop := s <> EmptyString /\ plain_chars s.

(** Expressions over blocks and transposed blocks with other than one row, with plain names,
    whose products are as Mult and Add build them. *)
Fixpoint tidy (e : ex) : Prop :=
  match e with
  | Const n r c => plain n /\ one r = false /\ (n = "I"%string -> r = c)
  | Trans b => match b with Const n r c => plain n /\ one c = false /\ (n = "I"%string -> r = c) | _ => False end
  | Mult r c m l =>
      (fix all l := match l with [] => True | t :: k => (tidy t /\ is_mult t = false) /\ all k end) l /\
      (2 <= List.length l)%nat /\ path r l c /\ m = false
  | Add r c l =>
      (fix all l := match l with [] => True | t :: k => (tidy t /\ rows t = r /\ cols t = c) /\ all k end) l /\ l <> []
  end.

(** A block matrix of such expressions *)
Definition tall (rs cs : list dim) (m : bmat) : Prop := Forall2 (fun r row => Forall2 (fun c e => tidy e /\ rows e = r /\ cols e = c) cs row) rs m.

(** The dense matrices the generated propagation code stands for: I + hA + s h² A², h (I + s h A) B and
    A P Aᵀ + B Q Bᵀ, for a step h and the constant s (one half). *)
Definition abar_dense n (a : lmat) (h s : R) : lmat := fun i j => lid i j + h * a i j + s * (h * (h * lmm n a a i j)).
Definition bbar_dense n (a b : lmat) (h s : R) : lmat := fun i j => h * lmm n (fun i j => lid i j + s * (h * a i j)) b i j.
Definition pout_dense n m (a p b q : lmat) : lmat := fun i j => lmm n (lmm n a p) (ltr a) i j + lmm m (lmm m b q) (ltr b) i j.
