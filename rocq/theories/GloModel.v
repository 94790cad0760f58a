(** Model of common/ephemeris/glonass.{h,cxx}.

    Members are grouped by the function that writes them.  A new object has
    [frame_flags_] and [time_mark_] zero (glonass.h:68-69); every other member
    starts with an arbitrary value.  Debug printing is left out.  Flags of the
    message that the code has commented out (P1 .. P4, M, tau_c ...) are not
    members.  getWavelength is in [getWavelength_Hz]. *)
From Coq Require Import ZArith NArith List Bool.
From Verif Require Import Bytes BitToolsModel UtcTimeModel CrcModel EphModel.
Import ListNotations.
Local Open Scope N_scope.

(** glonass.cxx:124-136; [tk_s_] is stored in seconds *)
Record str1 := mkStr1 { tk_h : N; tk_m : N; tk_s : N; vel0 : scaled; acc0 : scaled; pos0 : scaled }.
(** glonass.cxx:138-151 *)
Record str2 := mkStr2 { svh : N; tb : N; iode : N; vel1 : scaled; acc1 : scaled; pos1 : scaled }.
(** glonass.cxx:153-165 *)
Record str3 := mkStr3 { gamn : scaled; vel2 : scaled; acc2 : scaled; pos2 : scaled }.
(** glonass.cxx:167-180 *)
Record str4 := mkStr4 { taun : scaled; dtaun : scaled; age : N; sva : N; NT : N; slot : N }.
(** glonass.cxx:182-194 *)
Record str5 := mkStr5 { NA : N; N4 : N }.
Record gloeph := mkGlo { s1 : str1; s2 : str2; s3 : str3; s4 : str4; s5 : str5;
  flags : N; mark : N; tof : utc; toe : utc }.

(** glonass.h:56-63 *)
Definition FRAME1 : N := 1. Definition FRAME2 : N := 2. Definition FRAME3 : N := 4.
Definition FRAME4 : N := 8. Definition FRAME5 : N := 16.
(** glonass.h:67 *)
Definition got (s : gloeph) (frame : N) : bool := negb (N.land (flags s) frame =? 0).

(** glonass.cxx:201: UTCTime::fromCalendar(1996, 1, 1, 0, 0, 0); timegm is not
    modelled, its result is written as the number of days from 1970-01-01 *)
Definition Jan1_1996 : utc := mkUtc (9496 * 86400) 0.

(** glonass.cxx:196-219; the products are int arithmetic.  The result of the
    function is not used by any caller that looks at it and is left out. *)
Definition convertTime (s : gloeph) : option gloeph :=
  if negb (got s FRAME4) || negb (got s FRAME5) then Some s else
  do years <- i32 ((Z.of_N (N4 (s5 s)) - 1) * (3 * SEC_IN_YEAR + SEC_IN_LEAP_YEAR));
  do y0 <- add_int Jan1_1996 years;
  do y <- sub_int y0 (3 * 3600);
  do days <- i32 ((Z.of_N (NA (s5 s)) - 1) * SEC_IN_DAY);
  do d <- add_int y days;
  do tf <- (if got s FRAME1
            then add_int d (Z.of_N (tk_h (s1 s)) * 3600 + Z.of_N (tk_m (s1 s)) * 60 + Z.of_N (tk_s (s1 s)))
            else Some (tof s));
  do te <- (if got s FRAME2 then add_int d (Z.of_N (tb (s2 s)) * 60 * 15) else Some (toe s));
  Some (mkGlo (s1 s) (s2 s) (s3 s) (s4 s) (s5 s) (flags s) (mark s) tf te).

(** glonass.cxx:124-136 *)
Definition frame1 (buf : list N) (s : gloeph) : option gloeph :=
  do h <- getBit 5 buf 9;
  do m <- getBit 6 buf 14;
  do sec <- getBit 1 buf 20;
  do v <- glo 24 buf 21 [P2_20; E3];
  do a <- glo 5 buf 45 [P2_30; E3];
  do p <- glo 27 buf 50 [P2_11; E3];
  convertTime (mkGlo (mkStr1 h m (sec * 30) v a p) (s2 s) (s3 s) (s4 s) (s5 s)
    (N.lor (flags s) FRAME1) (mark s) (tof s) (toe s)).
(** glonass.cxx:138-151 *)
Definition frame2 (buf : list N) (s : gloeph) : option gloeph :=
  do h <- getBit 3 buf 5;
  do t <- getBit 7 buf 9;
  do v <- glo 24 buf 21 [P2_20; E3];
  do a <- glo 5 buf 45 [P2_30; E3];
  do p <- glo 27 buf 50 [P2_11; E3];
  convertTime (mkGlo (s1 s) (mkStr2 h t t v a p) (s3 s) (s4 s) (s5 s)
    (N.lor (flags s) FRAME2) (mark s) (tof s) (toe s)).
(** glonass.cxx:153-165 *)
Definition frame3 (buf : list N) (s : gloeph) : option gloeph :=
  do g <- glo 11 buf 6 [P2_40];
  do v <- glo 24 buf 21 [P2_20; E3];
  do a <- glo 5 buf 45 [P2_30; E3];
  do p <- glo 27 buf 50 [P2_11; E3];
  Some (mkGlo (s1 s) (s2 s) (mkStr3 g v a p) (s4 s) (s5 s)
    (N.lor (flags s) FRAME3) (mark s) (tof s) (toe s)).
(** glonass.cxx:167-180 *)
Definition frame4 (buf : list N) (s : gloeph) : option gloeph :=
  do tn <- glo 22 buf 5 [P2_30];
  do dt <- glo 5 buf 27 [P2_30];
  do ag <- getBit 5 buf 32;
  do va <- getBit 4 buf 52;
  do nt <- getBit 11 buf 59;
  do sl <- getBit 5 buf 70;
  Some (mkGlo (s1 s) (s2 s) (s3 s) (mkStr4 tn dt ag va nt sl) (s5 s)
    (N.lor (flags s) FRAME4) (mark s) (tof s) (toe s)).
(** glonass.cxx:182-194 *)
Definition frame5 (buf : list N) (s : gloeph) : option gloeph :=
  do na <- getBit 11 buf 5;
  do n4 <- getBit 5 buf 49;
  convertTime (mkGlo (s1 s) (s2 s) (s3 s) (s4 s) (mkStr5 na n4)
    (N.lor (flags s) FRAME5) (mark s) (tof s) (toe s)).

(** glonass.cxx:44-122.  [size] is the length of [msg].  Of the 64 bytes of
    [buf] the first 16 are written; the model keeps those. *)
Definition parse (s : gloeph) (msg : list N) : option (bool * gloeph) :=
  if Nat.ltb (length msg) 16 then Some (false, s) else
  do buf <- swapped 4 0 msg;
  do ok <- gloTest buf;
  if negb ok then Some (false, s) else
  do frame_num <- getBit 4 buf 1;
  if (frame_num <? 1) || (5 <? frame_num) then Some (false, s) else
  do hi <- nth_error buf 12;
  do lo <- nth_error buf 13;
  let time_mark := N.lor ((hi * 256) mod 65536) lo in
  let fl := if negb (time_mark =? mark s) then 0 else flags s in
  let s := mkGlo (s1 s) (s2 s) (s3 s) (s4 s) (s5 s) fl time_mark (tof s) (toe s) in
  do s <- (if frame_num =? 1 then frame1 buf s else if frame_num =? 2 then frame2 buf s
           else if frame_num =? 3 then frame3 buf s else if frame_num =? 4 then frame4 buf s
           else frame5 buf s);
  if negb (flags s =? N.lor (N.lor (N.lor (N.lor FRAME1 FRAME2) FRAME3) FRAME4) FRAME5) then Some (false, s) else
  if negb (frame_num =? 5) then Some (false, s) else
  Some (true, s).

(** the outcome of a sequence of calls on one object: the result of each call *)
Fixpoint run (s : gloeph) (msgs : list (list N)) : option (list bool * gloeph) :=
  match msgs with
  | [] => Some ([], s)
  | m :: r => do x <- parse s m; do y <- run (snd x) r; Some (fst x :: fst y, snd y)
  end.

(** glonass.cxx:29-42: getWavelength divides the speed of light by a carrier
    frequency.  The frequencies are whole numbers of hertz below 2^53, so the
    double sum is exact; the model returns the divisor.  [None]: the check fails. *)
Definition getWavelength_Hz (s : gloeph) (frequency : N) : option N :=
  if frequency =? 0 then Some (1602000000 + 562500 * slot (s4 s))
  else if frequency =? 1 then Some (1246000000 + 437500 * slot (s4 s))
  else if frequency =? 2 then Some 1202025000
  else None.
