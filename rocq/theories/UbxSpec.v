(** Specification of the UBX protocol framing (u-blox interface description),
    independent of the parser. *)
From Coq Require Import NArith List Bool.
From Verif Require Import Bytes.
Import ListNotations.
Local Open Scope N_scope.

Record msg := mkMsg { m_class : N; m_id : N; m_payload : list N }.

Definition sum (l : list N) : N := fold_right N.add 0 l.
(** sum of the running sums: the first byte counts n times, the last once *)
Fixpoint weighted (l : list N) : N :=
  match l with [] => 0 | b :: r => N.of_nat (length l) * b + weighted r end.
(** the 8-bit Fletcher checksum *)
Definition fletcher (l : list N) : list N := [sum l mod 256; weighted l mod 256].

Definition le16 (n : N) : list N := [n mod 256; n / 256].
Definition body (m : msg) : list N :=
  [m_class m; m_id m] ++ le16 (N.of_nat (length (m_payload m))) ++ m_payload m.
Definition frame (m : msg) : list N := [0xB5; 0x62] ++ body m ++ fletcher (body m).

(** messages with a payload that the receiver is meant to handle *)
Definition msg_ok (m : msg) : Prop :=
  m_class m < 256 /\ m_id m < 256 /\ bytes_ok (m_payload m) /\
  (1 <= length (m_payload m))%nat /\ N.of_nat (length (m_payload m)) <= 2048.

(** no sync pattern *)
Fixpoint no_sync (l : list N) : Prop :=
  match l with
  | a :: (b :: _) as r => ~ (a = 0xB5 /\ b = 0x62) /\ no_sync r
  | _ => True
  end.
