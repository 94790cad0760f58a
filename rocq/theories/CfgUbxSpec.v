(** What the configuration messages of the u-blox protocol mean, and what a
    version message says (u-blox interface description), independent of the
    code that writes and reads them. *)
From Coq Require Import NArith ZArith List Bool.
From Verif Require Import Bytes.
Import ListNotations.
Local Open Scope N_scope.

(** a number in [n] bytes, least significant first *)
Fixpoint le (n : nat) (v : N) : list N :=
  match n with O => [] | S k => v mod 256 :: le k (v / 256) end.
(** the number in bytes *)
Fixpoint number (l : list N) : N := match l with [] => 0 | b :: r => b + 256 * number r end.
(** the bytes [o .. o+n-1] of a payload as a number *)
Definition field (o n : nat) (p : list N) : N := number (firstn n (skipn o p)).

(** UBX-CFG-VALSET: the size of a value is coded in bits 28 to 30 of its key *)
Definition value_size (key : N) : option nat :=
  match (key / 2 ^ 28) mod 8 with
  | 1 => Some 1%nat | 2 => Some 1%nat | 3 => Some 2%nat | 4 => Some 4%nat | 5 => Some 8%nat | _ => None
  end.
(** a key with its value *)
Definition pair_bytes (kv : N * N) (b : list N) : Prop :=
  exists n, value_size (fst kv) = Some n /\ fst kv < 2 ^ 32 /\ snd kv < 256 ^ N.of_nat n /\ b = le 4 (fst kv) ++ le n (snd kv).
Inductive pairs_bytes : list (N * N) -> list N -> Prop :=
| no_pairs : pairs_bytes [] []
| more_pairs kv b kvs bs : pair_bytes kv b -> pairs_bytes kvs bs -> pairs_bytes (kv :: kvs) (b ++ bs).
(** a payload that sets these keys in these layers *)
Definition sets (version layers : N) (kvs : list (N * N)) (p : list N) : Prop :=
  exists b, pairs_bytes kvs b /\ p = [version; layers; 0; 0] ++ b.
(** UBX-CFG-VALGET: a payload that asks for these keys *)
Definition asks (version layer : N) (keys : list N) (p : list N) : Prop :=
  p = [version; layer] ++ [0; 0] ++ concat (map (le 4) keys).

(** UBX-CFG-PRT: the port, the masks of protocols (bit 0: UBX, bit 1: NMEA), the
    format of the characters *)
Definition port (p : list N) : N := field 0 1 p.
Definition character_bits (p : list N) : N := 5 + (field 4 4 p / 64) mod 4.
Definition baud (p : list N) : N := field 8 4 p.
Definition in_protocols (p : list N) : N := field 12 2 p.
Definition out_protocols (p : list N) : N := field 14 2 p.
Definition UART1 : N := 1.
Definition USB : N := 3.

(** UBX-MON-VER: software in 30 bytes, hardware in 10, then strings of 30 bytes
    each, all zero-terminated *)
Definition padded (n : nat) (t : list N) : list N := t ++ repeat 0 (n - length t).
Definition text (n : nat) (t : list N) : Prop := (length t < n)%nat /\ Forall (fun c => 0 < c < 256) t.
Definition version_payload (software hardware : list N) (strings : list (list N)) : list N :=
  padded 30 software ++ padded 10 hardware ++ concat (map (padded 30) strings).
(** decimal digits and the number they denote *)
Definition digits (t : list N) : Prop := Forall (fun c => 48 <= c <= 57) t.
Definition decimal (t : list N) : Z := fold_left (fun a c => 10 * a + (Z.of_N c - 48))%Z t 0%Z.
