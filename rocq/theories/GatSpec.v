(** What the receiver's raw messages say, from the u-blox interface description
    (UBX-RXM-RAWX, UBX-RXM-SFRBX, satellite and signal numbering), and what a log
    of them should hold. *)
From Coq Require Import ZArith NArith List Bool.
From Verif Require Import UbxSpec.
Import ListNotations.
Local Open Scope N_scope.

(** ** Carrier frequencies, in hertz *)
(** the fundamental frequency of GPS and Galileo *)
Definition base : Z := 10230000.
(** RAWX: freqId is the GLONASS frequency slot plus 7, from 0 to 13 *)
Definition slot (freq_id : N) : Z := (Z.of_N freq_id - 7)%Z.
(** the signals of the three constellations that the program handles: system,
    signal, carrier (of slot 0 for GLONASS) and spacing of the slots *)
Definition signals : list (N * N * Z * Z) :=
  [(0, 0, (154 * base)%Z, 0%Z); (0, 3, (120 * base)%Z, 0%Z); (0, 4, (120 * base)%Z, 0%Z);
   (2, 0, (154 * base)%Z, 0%Z); (2, 1, (154 * base)%Z, 0%Z); (2, 5, (118 * base)%Z, 0%Z); (2, 6, (118 * base)%Z, 0%Z);
   (6, 0, 1602000000%Z, 562500%Z); (6, 2, 1246000000%Z, 437500%Z)].
Definition signal (gnss sig : N) : option (Z * Z) :=
  option_map (fun e => (snd (fst e), snd e))
    (find (fun e => (fst (fst (fst e)) =? gnss) && (snd (fst (fst e)) =? sig)) signals).
Definition carrier (gnss sig freq_id : N) : option Z :=
  option_map (fun p => (fst p + slot freq_id * snd p)%Z) (signal gnss sig).
Definition spacing (gnss sig : N) : Z := match signal gnss sig with Some p => snd p | None => 0%Z end.

(** ** UBX-RXM-RAWX *)
(** one measurement: pseudorange and carrier phase (R8), Doppler (R4), system,
    satellite, signal, freqId, and eight bytes of quality figures *)
Record measurement := Meas {
  r_pr : list N; r_cp : list N; r_do : list N; r_gnss : N; r_sv : N; r_sig : N; r_freq : N; r_rest : list N }.
Definition meas_ok (m : measurement) : Prop :=
  (length (r_pr m) = 8 /\ length (r_cp m) = 8 /\ length (r_do m) = 4 /\ length (r_rest m) = 8)%nat.
Definition block (m : measurement) : list N :=
  r_pr m ++ r_cp m ++ r_do m ++ [r_gnss m; r_sv m; r_sig m; r_freq m] ++ r_rest m.
(** the payload: eleven bytes of time, the number of measurements, four bytes,
    the measurements *)
Definition rawx (time tail : list N) (ms : list measurement) : list N :=
  time ++ [N.of_nat (length ms)] ++ tail ++ concat (map block ms).
Definition rawx_ok (time tail : list N) (ms : list measurement) : Prop :=
  length time = 11%nat /\ length tail = 4%nat /\ Forall meas_ok ms.
Definition is_raw (m : msg) : bool := (m_class m =? 2) && (m_id m =? 0x15).

(** ** UBX-RXM-SFRBX: system, satellite, reserved, freqId, number of words,
    channel, version, reserved, the words *)
Definition is_nav (m : msg) : bool := (m_class m =? 2) && (m_id m =? 0x13).
Definition nav_gnss (m : msg) : N := nth 0 (m_payload m) 0.
Definition nav_sat (m : msg) : N := nth 1 (m_payload m) 0.
Definition nav_count (m : msg) : N := nth 4 (m_payload m) 0.
Definition nav_words (m : msg) : list N := skipn 8 (m_payload m).
(** as long as it says, and as long as a subframe, page or string of the system *)
Definition nav_ok (m : msg) : Prop :=
  (8 <= length (m_payload m))%nat /\ length (nav_words m) = (4 * N.to_nat (nav_count m))%nat /\
  (nav_gnss m = 2 -> 8 <= nav_count m) /\ (nav_gnss m = 6 -> 4 <= nav_count m).
(** what one satellite of one system has sent, in order *)
Definition about (gnss sat : N) (m : msg) : bool := is_nav m && (nav_gnss m =? gnss) && (nav_sat m =? sat).
Definition sent_by (gnss sat : N) (ms : list msg) : list (list N) := map nav_words (filter (about gnss sat) ms).

(** ** What the log should hold *)
(** a record of an observation: system, satellite, frequency, pseudorange,
    Doppler shift, carrier phase *)
Definition record : Type := N * N * Z * list N * list N * list N.
(** one record for every measurement of a handled signal, in order, [off] being
    added to the frequency *)
Definition records (off : N -> N -> Z) (ms : list measurement) : list record :=
  flat_map (fun m => match carrier (r_gnss m) (r_sig m) (r_freq m) with
    | Some c => [(r_gnss m, r_sv m, (c + off (r_gnss m) (r_sig m))%Z, r_pr m, r_do m, r_cp m)]
    | None => []
    end) ms.
(** the messages that the program subscribes to *)
Definition heard (m : msg) : bool := is_nav m || is_raw m.
(** the measurements of every raw message, with the number of the message among
    those heard *)
Inductive measured : list msg -> list (option (list measurement)) -> Prop :=
| me_nil : measured [] []
| me_skip m ms l : heard m = false -> measured ms l -> measured (m :: ms) l
| me_nav m ms l : is_nav m = true -> measured ms l -> measured (m :: ms) (None :: l)
| me_raw m ms l time tail rs : is_raw m = true -> m_payload m = rawx time tail rs -> rawx_ok time tail rs ->
    measured ms l -> measured (m :: ms) (Some rs :: l).
