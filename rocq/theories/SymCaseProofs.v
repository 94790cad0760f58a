(** Concrete expressions: simplifications that change the value or never end. *)
From Coq Require Import String Ascii List Arith Bool Reals Lia Lra Permutation.
From Verif Require Import LinSpec LinProofs SymModel SymSpec.
Import ListNotations.
Local Open Scope string_scope.

Definition sq (n : string) : ex := Const n (Num 2) (Num 2).
Definition dt : ex := Const "dt" (Num 1) (Num 1).
Definition E0 : env := {| vsize := fun _ => 0%nat;
  val := fun n i j => if String.eqb n "A" then (if Nat.eqb i j then 2 else 0)%R else if String.eqb n "P" then (if Nat.eqb i j then 3 else 0)%R else if String.eqb n "2" then 2%R else lid i j |}.
Definition get (o : option ex) : ex := match o with Some e => e | None => Const "" (Num 0) (Num 0) end.
(** dt*A + A*B *)
Definition e1 : ex := Eval vm_compute in get (do a <- mul dt (sq "A"); do b <- mul (sq "A") (sq "B"); add a b).
(** dt*(A + B) *)
Definition r1 : ex := Eval vm_compute in get (do a <- add (sq "A") (sq "B"); mul dt a).
Lemma e1_built : (do a <- mul dt (sq "A"); do b <- mul (sq "A") (sq "B"); add a b) = Some e1.
Proof. reflexivity. Qed.
Lemma e1_reduced : reduce 10 e1 = Some r1.
Proof. vm_compute. reflexivity. Qed.
Lemma e1_value : eval E0 e1 0%nat 0%nat = 4%R.
Proof. cbv -[Rplus Rmult Ropp IZR]. lra. Qed.
Lemma r1_value : eval E0 r1 0%nat 0%nat = 3%R.
Proof. cbv -[Rplus Rmult Ropp IZR]. lra. Qed.

(** (P + P*X)*L + P*L *)
Definition e2 : ex := Eval vm_compute in get (do px <- mul (sq "P") (sq "X"); do s <- add (sq "P") px; do a <- mul s (sq "L"); do b <- mul (sq "P") (sq "L"); add a b).
Definition r2 : ex := Eval vm_compute in get (reduce 12 e2).
Lemma e2_built : (do px <- mul (sq "P") (sq "X"); do s <- add (sq "P") px; do a <- mul s (sq "L"); do b <- mul (sq "P") (sq "L"); add a b) = Some e2.
Proof. reflexivity. Qed.
Lemma e2_reduced : reduce 12 e2 = Some r2.
Proof. vm_compute. reflexivity. Qed.

(** A*A*B + A*A*C *)
Definition e3 : ex := Eval vm_compute in get (do aa <- mul (sq "A") (sq "A"); do aab <- mul aa (sq "B"); do aac <- mul aa (sq "C"); add aab aac).
Lemma e3_built : (do aa <- mul (sq "A") (sq "A"); do aab <- mul aa (sq "B"); do aac <- mul aa (sq "C"); add aab aac) = Some e3.
Proof. reflexivity. Qed.
Lemma e3_never fuel : reduce fuel e3 = None.
Proof. do 8 (destruct fuel as [| fuel]; [vm_compute; reflexivity|]). vm_compute. reflexivity. Qed.

(** (A*P + A*Q)*H + R*H, multiplied out by the products A*P*H, A*Q*H and R*H *)
Definition e4 : ex := Eval vm_compute in get (do ap <- mul (sq "A") (sq "P"); do a <- mul ap (sq "H"); do aq <- mul (sq "A") (sq "Q"); do b <- mul aq (sq "H"); do c <- mul (sq "R") (sq "H"); do s <- add a b; add s c).
Definition r4 : ex := Eval vm_compute in get (reduce 12 e4).
Lemma e4_reduced : reduce 12 e4 = Some r4.
Proof. vm_compute. reflexivity. Qed.
Lemma sq_tidy n : plain n -> n <> "I" -> tidy (sq n).
Proof. intros Hp Hn. cbn. split; [exact Hp|]. split; [reflexivity|]. congruence. Qed.
Ltac plain_tac := split; [discriminate| cbn; repeat split; discriminate].
Lemma e4_tidy : tidy e4.
Proof. cbn. repeat split; try discriminate; try lia; auto. Qed.
Lemma e4_nodup : NoDup (monomials e4).
Proof.
  replace (monomials e4) with [[sq "A"; sq "P"; sq "H"]; [sq "A"; sq "Q"; sq "H"]; [sq "R"; sq "H"]] by (vm_compute; reflexivity).
  repeat constructor; cbn; intuition discriminate.
Qed.
Lemma e2_tidy : tidy e2.
Proof. cbn. repeat split; try discriminate; try lia; auto. Qed.
Lemma e2_value : eval E0 e2 0%nat 0%nat = 9%R.
Proof. cbv -[Rplus Rmult Ropp IZR]. lra. Qed.
Lemma r2_value : eval E0 r2 0%nat 0%nat = 8%R.
Proof. cbv -[Rplus Rmult Ropp IZR]. lra. Qed.

(** Two 1 x 1 blocks *)
Lemma one_by_one : mul (Const "a" (Num 1) (Num 1)) (Const "b" (Num 1) (Num 1)) = None.
Proof. reflexivity. Qed.
(** [[F 0] [I G]] times [[0 J] [K I]], with blocks of 2 and 3 rows *)
Definition k23 (n : string) : ex := Const n (Num 2) (Num 3).
Definition k32 (n : string) : ex := Const n (Num 3) (Num 2).
Definition k33 (n : string) : ex := Const n (Num 3) (Num 3).
Definition m1 : bmat := [[sq "F"; k23 "0"]; [k32 "D"; k33 "I"]].
Definition m2 : bmat := [[sq "I"; k23 "J"]; [k32 "0"; k33 "K"]].
Definition m3 : bmat := [[sq "F"; get (mul (sq "F") (k23 "J"))]; [k32 "D"; get (do p <- mul (k32 "D") (k23 "J"); add p (k33 "K"))]].
Lemma m3_product : bmul m1 m2 = Some m3.
Proof. vm_compute. reflexivity. Qed.
Lemma m1_tall : tall [Num 2; Num 3] [Num 2; Num 3] m1.
Proof. repeat constructor; try discriminate; auto. Qed.
Lemma m2_tall : tall [Num 2; Num 3] [Num 2; Num 3] m2.
Proof. repeat constructor; try discriminate; auto. Qed.
Lemma m1_shaped : shaped [Num 2; Num 3] [Num 2; Num 3] m1.
Proof. repeat constructor; try discriminate; auto. Qed.
Lemma m2_shaped : shaped [Num 2; Num 3] [Num 2; Num 3] m2.
Proof. repeat constructor; try discriminate; auto. Qed.
