(** Model of common/ephemeris/galileo.{h,cxx}.

    Members are grouped by the function that writes them (each is written by one
    of frame0 .. frame5, except those in [gal] itself and [week], which parse
    also adjusts).  A freshly constructed object has [iod] and
    [collected_subframes] zero (galileo.h:57-70); every other member starts with
    an arbitrary value.  The members ai0, ai1, ai2 are never written by parse and
    are left out, and so is debug printing. *)
From Coq Require Import ZArith NArith List Bool.
From Verif Require Import Bytes BitToolsModel UtcTimeModel CrcModel EphModel.
Import ListNotations.
Local Open Scope N_scope.

(** members written by galileo.cxx:179-192 *)
Record word0 := mkWord0 { time_f : N; week : N; tow : N }.
(** galileo.cxx:194-209; [toes] is a uint32_t assigned from an exact double product *)
Record word1 := mkWord1 { iod0 : N; toes : N; m0 : scaled; ecc : scaled; sqrta : scaled }.
(** galileo.cxx:211-226 *)
Record word2 := mkWord2 { iod1 : N; omega0 : scaled; i0 : scaled; w : scaled; idot : scaled }.
(** galileo.cxx:228-245 *)
Record word3 := mkWord3 { iod2 : N; omegadot : scaled; delta_n : scaled; cuc : scaled;
  cus : scaled; crc : scaled; crs : scaled }.
(** galileo.cxx:247-271 *)
Record word4 := mkWord4 { iod3 : N; cic : scaled; cis : scaled; tocs : N;
  af0 : scaled; af1 : scaled; af2 : scaled }.
(** galileo.cxx:273-292 *)
Record word5 := mkWord5 { bgd_e1_e5a : scaled; bgd_e1_e5b : scaled; e5b_hs : N; e1b_hs : N;
  e5b_dvs : N; e1b_dvs : N }.
(** the whole object; [sat] is set by the constructor *)
Record gal := mkGal {
  sat : N; g0 : word0; g1 : word1; g2 : word2; g3 : word3; g4 : word4; g5 : word5;
  collected : N; iode : N; iodc : N; toe : utc; toc : utc }.

(** galileo.h:59-67 *)
Definition FRAME0 : N := 1. Definition FRAME1 : N := 2. Definition FRAME2 : N := 4.
Definition FRAME3 : N := 8. Definition FRAME4 : N := 16. Definition FRAME5 : N := 32.

Definition set_collected (s : gal) (c : N) : gal :=
  mkGal (sat s) (g0 s) (g1 s) (g2 s) (g3 s) (g4 s) (g5 s) c (iode s) (iodc s) (toe s) (toc s).

(** galileo.cxx:86-90 and 92-96: bytes [i ..] of [src] copied to bit [j ..] of the CRC buffer *)
Fixpoint copy_bytes (n i j : nat) (src dst : list N) : option (list N) :=
  match n with
  | O => Some dst
  | S n' => do b <- nth_error src i; do dst' <- setBit 8 dst j b; copy_bytes n' (S i) (j + 8) src dst'
  end.

(** galileo.cxx:117-122 and 124-128: [buf[i] = getBit<8>(buf, i * 8 + off)], in place *)
Fixpoint pack (n i off : nat) (buf : list N) : option (list N) :=
  match n with
  | O => Some buf
  | S n' => do v <- getBit 8 buf (i * 8 + off); do buf' <- upd buf i v; pack n' (S i) off buf'
  end.

(** galileo.cxx:179-192.  Members are written before the type is checked. *)
Definition frame0 (buf : list N) (s : gal) : option gal :=
  do type <- getBit 6 buf 0;
  do tf <- getBit 2 buf 6;
  do wk <- getBit 12 buf 96;
  do tw <- getBit 20 buf 108;
  Some (mkGal (sat s) (mkWord0 tf wk tw) (g1 s) (g2 s) (g3 s) (g4 s) (g5 s)
    (if type =? 0 then N.lor (collected s) FRAME0 else collected s) (iode s) (iodc s) (toe s) (toc s)).
(** galileo.cxx:194-209 *)
Definition frame1 (buf : list N) (s : gal) : option gal :=
  do type <- getBit 6 buf 0;
  do io <- getBit 10 buf 6;
  do te <- getBit 14 buf 16;
  do x_m0 <- sgn 32 buf 30 [P2_31; PI];
  do x_ecc <- uns 32 buf 62 [P2_33];
  do x_sa <- uns 32 buf 94 [P2_19];
  Some (mkGal (sat s) (g0 s) (mkWord1 io (te * 60) x_m0 x_ecc x_sa) (g2 s) (g3 s) (g4 s) (g5 s)
    (if type =? 1 then N.lor (collected s) FRAME1 else collected s) (iode s) (iodc s) (toe s) (toc s)).
(** galileo.cxx:211-226 *)
Definition frame2 (buf : list N) (s : gal) : option gal :=
  do type <- getBit 6 buf 0;
  do io <- getBit 10 buf 6;
  do x_o0 <- sgn 32 buf 16 [P2_31; PI];
  do x_i0 <- sgn 32 buf 48 [P2_31; PI];
  do x_w <- sgn 32 buf 80 [P2_31; PI];
  do x_id <- sgn 14 buf 112 [P2_43; PI];
  Some (mkGal (sat s) (g0 s) (g1 s) (mkWord2 io x_o0 x_i0 x_w x_id) (g3 s) (g4 s) (g5 s)
    (if type =? 2 then N.lor (collected s) FRAME2 else collected s) (iode s) (iodc s) (toe s) (toc s)).
(** galileo.cxx:228-245 *)
Definition frame3 (buf : list N) (s : gal) : option gal :=
  do type <- getBit 6 buf 0;
  do io <- getBit 10 buf 6;
  do x_od <- sgn 24 buf 16 [P2_43; PI];
  do x_dn <- sgn 16 buf 40 [P2_43; PI];
  do x_cuc <- sgn 16 buf 56 [P2_29];
  do x_cus <- sgn 16 buf 72 [P2_29];
  do x_crc <- sgn 16 buf 88 [P2_5];
  do x_crs <- sgn 16 buf 104 [P2_5];
  Some (mkGal (sat s) (g0 s) (g1 s) (g2 s) (mkWord3 io x_od x_dn x_cuc x_cus x_crc x_crs) (g4 s) (g5 s)
    (if type =? 3 then N.lor (collected s) FRAME3 else collected s) (iode s) (iodc s) (toe s) (toc s)).
(** galileo.cxx:247-271 *)
Definition frame4 (buf : list N) (s : gal) : option gal :=
  do type <- getBit 6 buf 0;
  do io <- getBit 10 buf 6;
  do svid <- getBit 6 buf 16;
  do x_cic <- sgn 16 buf 22 [P2_29];
  do x_cis <- sgn 16 buf 38 [P2_29];
  do tc <- getBit 14 buf 54;
  do x_a0 <- sgn 31 buf 68 [P2_34];
  do x_a1 <- sgn 21 buf 99 [P2_46];
  do x_a2 <- sgn 6 buf 120 [P2_59];
  Some (mkGal (sat s) (g0 s) (g1 s) (g2 s) (g3 s) (mkWord4 io x_cic x_cis (tc * 60) x_a0 x_a1 x_a2) (g5 s)
    (if (type =? 4) && (svid =? sat s) then N.lor (collected s) FRAME4 else collected s)
    (iode s) (iodc s) (toe s) (toc s)).
(** galileo.cxx:273-292 *)
Definition frame5 (buf : list N) (s : gal) : option gal :=
  do type <- getBit 6 buf 0;
  do x_a <- sgn 10 buf 47 [P2_32];
  do x_b <- sgn 10 buf 57 [P2_32];
  do h1 <- getBit 2 buf 67;
  do h2 <- getBit 2 buf 69;
  do d1 <- getBit 1 buf 70;
  do d2 <- getBit 1 buf 71;
  Some (mkGal (sat s) (g0 s) (g1 s) (g2 s) (g3 s) (g4 s) (mkWord5 x_a x_b h1 h2 d1 d2)
    (if type =? 5 then N.lor (collected s) FRAME5 else collected s) (iode s) (iodc s) (toe s) (toc s)).

(** galileo.cxx:164-176.  The arguments [tow * 1000.0] and [toes * 1000.0] are
    whole doubles below 2^31, so their conversion to int is exact; [dt] is a
    whole number of seconds, compared here as nanoseconds; [week] is a uint16_t. *)
Definition finish (s : gal) : option (bool * gal) :=
  let wk := week (g0 s) in
  let te := (Z.of_N (toes (g1 s)) * 1000)%Z in
  do ttr <- fromGalileo (Z.of_N wk) (Z.of_N (tow (g0 s)) * 1000);
  do t0 <- fromGalileo (Z.of_N wk) te;
  do d <- sub t0 ttr;
  let dt := (sec d * 1000000000 + nsec d)%Z in
  let wk1 := (if 302400000000000 <? dt then Z.of_N wk - 1
              else if dt <? -302400000000000 then Z.of_N wk + 1 else Z.of_N wk)%Z in
  let wk2 := Z.to_N ((wk1 + 1024) mod 65536) in
  do e <- fromGalileo (Z.of_N wk2) te;
  do c <- fromGalileo (Z.of_N wk2) (Z.of_N (tocs (g4 s)) * 1000);
  Some (true, mkGal (sat s) (mkWord0 (time_f (g0 s)) wk2 (tow (g0 s))) (g1 s) (g2 s) (g3 s) (g4 s) (g5 s)
    (collected s) (iod0 (g1 s) mod 256) (iod0 (g1 s)) e c).

(** galileo.cxx:48-177.  [buf] has 64 bytes of which the first 32 are written;
    the model keeps those 32, so a read beyond them is the outcome [None]. *)
Definition parse (s : gal) (msg : list N) : option (bool * gal) :=
  do buf <- swapped 8 0 msg;
  do part1 <- getBit 1 buf 0;
  do page1 <- getBit 1 buf 1;
  do part2 <- getBit 1 (skipn 16 buf) 0;
  do page2 <- getBit 1 (skipn 16 buf) 1;
  if (page1 =? 1) || (page2 =? 1) then Some (false, s) else
  if negb (part1 =? 0) || negb (part2 =? 1) then Some (false, s) else
  do cb1 <- copy_bytes 15 0 4 buf (repeat 0 26);
  do cb2 <- copy_bytes 11 0 118 (skipn 16 buf) cb1;
  do sum <- crc24 cb2 25;
  do want <- getBit 24 (skipn 16 buf) 82;
  if negb (sum =? want) then Some (false, s) else
  do type <- getBit 6 buf 2;
  if 6 <? type then Some (false, s) else
  let s := if type =? 2 then set_collected s 0 else s in
  do b1 <- pack 14 0 2 buf;
  do b2 <- pack 2 14 122 b1;
  if type =? 6 then Some (false, s) else
  do s <- (if type =? 0 then frame0 b2 s else if type =? 1 then frame1 b2 s
           else if type =? 2 then frame2 b2 s else if type =? 3 then frame3 b2 s
           else if type =? 4 then frame4 b2 s else frame5 b2 s);
  if negb (collected s =? N.lor (N.lor (N.lor (N.lor (N.lor FRAME0 FRAME1) FRAME2) FRAME3) FRAME4) FRAME5)
  then Some (false, s) else
  if negb (iod0 (g1 s) =? iod1 (g2 s)) || negb (iod0 (g1 s) =? iod2 (g3 s))
     || negb (iod0 (g1 s) =? iod3 (g4 s)) then Some (false, s) else
  finish s.

(** the outcome of a sequence of calls on one object: the result of each call *)
Fixpoint run (s : gal) (msgs : list (list N)) : option (list bool * gal) :=
  match msgs with
  | [] => Some ([], s)
  | m :: r => do x <- parse s m; do y <- run (snd x) r; Some (fst x :: fst y, snd y)
  end.
