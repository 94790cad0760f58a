(** Model of common/ephemeris/gps.{h,cxx}.

    Members are grouped by the function that writes them (each member is written
    by one of frame1, frame2, frame3, except [iode] and the synchronisation
    variables).  A freshly constructed object has [iode1 = iode2 = iode3 =
    collected_subframes = 0] (gps.h:49-58); every other member starts with an
    arbitrary value.  Little-endian byte order is assumed for the word access at
    gps.cxx:52.  Debug printing is left out. *)
From Coq Require Import ZArith NArith List Bool.
From Verif Require Import Bytes BitToolsModel UtcTimeModel EphModel.
Import ListNotations.
Local Open Scope N_scope.

(** members written by gps.cxx:103-135 *)
Record sub1 := mkSub1 {
  code_on_L2 : N; ura : N; health : N; L2_P_data_flag : N; tocs : N;
  af2 : scaled; af1 : scaled; af0 : scaled; alert_flag : N; tgd : scaled;
  iodc : N; week : N }.
(** members written by gps.cxx:137-161; [fit_interval_flag] is a uint8_t assigned from 0.0 or 4.0 *)
Record sub2 := mkSub2 {
  crs : scaled; delta_n : scaled; m0 : scaled; cuc : scaled; ecc : scaled; cus : scaled;
  sqrta : scaled; toes : N; fit_interval_flag : N }.
(** members written by gps.cxx:163-185 *)
Record sub3 := mkSub3 {
  cic : scaled; omega0 : scaled; cis : scaled; i0 : scaled; crc : scaled; w : scaled;
  omegadot : scaled; idot : scaled }.
(** the whole object *)
Record gps := mkGps {
  s1 : sub1; s2 : sub2; s3 : sub3; iode : N; iode1 : N; iode2 : N; iode3 : N;
  collected : N; toe : utc; toc : utc }.

(** gps.h:52-57 *)
Definition FRAME1 : N := 1. Definition FRAME2 : N := 2. Definition FRAME3 : N := 4.

(** gps.cxx:47-54: ten words, parity stripped, packed into 30 bytes.  [sub] is
    the (initially uninitialised) array. *)
Fixpoint unpack (n i : nat) (msg sub : list N) : option (list N) :=
  match n with
  | O => Some sub
  | S n' => do x <- word msg i; do sub' <- setBit 24 sub (i * 24) (N.shiftr x 6);
            unpack n' (S i) msg sub'
  end.

(** gps.cxx:103-135.  [None] is an out-of-bounds read; a wrong preamble leaves
    the object alone.  (The boolean result is not used by the caller.) *)
Definition frame1 (buf : list N) (s : gps) : option gps :=
  do b0 <- nth_error buf 0;
  if negb (N.eqb b0 0x8B) then Some s else
  do week_mod <- getBit 10 buf 48;
  do cl2 <- getBit 2 buf 58;
  do ur <- getBit 4 buf 60;
  do he <- getBit 6 buf 64;
  do iodc0 <- getBit 2 buf 70;
  do l2p <- getBit 1 buf 72;
  do tg <- getBitS 8 buf 160;
  do io <- getBit 8 buf 168;
  do tc <- getBit 16 buf 176;
  do a2 <- sgn 8 buf 192 [P2_55];
  do a1 <- sgn 16 buf 200 [P2_43];
  do a0 <- sgn 22 buf 216 [P2_31];
  let d := mkSub1 cl2 ur he l2p (tc * 16) a2 a1 a0 0
             (if Z.eqb tg (-128) then Sc 0 [] else Sc tg [P2_31])
             ((N.shiftl iodc0 8 + io) mod 2 ^ 16) ((week_mod + 2048) mod 2 ^ 16) in
  Some (mkGps d (s2 s) (s3 s) io io (iode2 s) (iode3 s) (N.lor (collected s) FRAME1) (toe s) (toc s)).

(** gps.cxx:137-161 *)
Definition frame2 (buf : list N) (s : gps) : option gps :=
  do b0 <- nth_error buf 0;
  if negb (N.eqb b0 0x8B) then Some s else
  do io <- getBit 8 buf 48;
  do x_crs <- sgn 16 buf 56 [P2_5];
  do x_dn <- sgn 16 buf 72 [P2_43; PI];
  do x_m0 <- sgn 32 buf 88 [P2_31; PI];
  do x_cuc <- sgn 16 buf 120 [P2_29];
  do x_ecc <- uns 32 buf 136 [P2_33];
  do x_cus <- sgn 16 buf 168 [P2_29];
  do x_sa <- uns 32 buf 184 [P2_19];
  do te <- getBit 16 buf 216;
  do fi <- getBit 1 buf 232;
  let d := mkSub2 x_crs x_dn x_m0 x_cuc x_ecc x_cus x_sa (te * 16) (if N.eqb fi 0 then 4 else 0) in
  Some (mkGps (s1 s) d (s3 s) io (iode1 s) io (iode3 s) (N.lor (collected s) FRAME2) (toe s) (toc s)).

(** gps.cxx:163-185.  The issue of data read at line 178 is overwritten at line 181. *)
Definition frame3 (buf : list N) (s : gps) : option gps :=
  do b0 <- nth_error buf 0;
  if negb (N.eqb b0 0x8B) then Some s else
  do x_cic <- sgn 16 buf 48 [P2_29];
  do x_o0 <- sgn 32 buf 64 [P2_31; PI];
  do x_cis <- sgn 16 buf 96 [P2_29];
  do x_i0 <- sgn 32 buf 112 [P2_31; PI];
  do x_crc <- sgn 16 buf 144 [P2_5];
  do x_w <- sgn 32 buf 160 [P2_31; PI];
  do x_od <- sgn 24 buf 192 [P2_43; PI];
  do io3 <- getBit 8 buf 216;
  do x_id <- sgn 14 buf 224 [P2_43; PI];
  let d := mkSub3 x_cic x_o0 x_cis x_i0 x_crc x_w x_od x_id in
  Some (mkGps (s1 s) (s2 s) d (iode s) (iode1 s) (iode2 s) (iode s) (N.lor (collected s) FRAME3) (toe s) (toc s)).

(** gps.cxx:39-101.  [junk] is the initial content of the local array; [msg] is
    the memory at the pointer argument.  toes * 1000 is unsigned 32-bit. *)
Definition parse (junk : list N) (s : gps) (msg : list N) (size : nat) : option (bool * gps) :=
  if Nat.ltb size 40 then Some (false, s) else
  do sub <- unpack 10 0 msg junk;
  do id <- getBit 3 sub 43;
  if (id <? 1) || (3 <? id) then Some (false, s) else
  do s' <- (if id =? 1 then frame1 sub s else if id =? 2 then frame2 sub s else frame3 sub s);
  if negb (collected s' =? N.lor (N.lor FRAME1 FRAME2) FRAME3) then Some (false, s') else
  if negb (iode1 s' =? iode2 s') || negb (iode1 s' =? iode3 s')
     || negb (iode s' =? N.land (iodc (s1 s')) 0xFF) then Some (false, s') else
  do te <- fromGPS (Z.of_N (week (s1 s'))) (u32_to_int (Z.of_N (toes (s2 s')) * 1000));
  do tc <- fromGPS (Z.of_N (week (s1 s'))) (u32_to_int (Z.of_N (tocs (s1 s')) * 1000));
  Some (true, mkGps (s1 s') (s2 s') (s3 s') (iode s') 0 0 0 (collected s') te tc).

(** the outcome of a sequence of calls on one object: the result of each call *)
Fixpoint run (junk : list N) (s : gps) (msgs : list (list N)) : option (list bool * gps) :=
  match msgs with
  | [] => Some ([], s)
  | m :: r => do x <- parse junk s m (length m); do y <- run junk (snd x) r;
              Some (fst x :: fst y, snd y)
  end.
