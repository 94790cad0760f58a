(** What is expected of the names of streams and logs. *)
From Coq Require Import Ascii String ZArith List Bool.
From Verif Require Import LogNameModel.
Local Open Scope Z_scope.

(** The proleptic Gregorian calendar. *)
Definition leap (y : Z) : bool := (y mod 4 =? 0) && (negb (y mod 100 =? 0) || (y mod 400 =? 0)).
Definition month_length (y m : Z) : Z :=
  if m =? 2 then (if leap y then 29 else 28) else if (m =? 4) || (m =? 6) || (m =? 9) || (m =? 11) then 30 else 31.
Definition valid_tm (f : tm) : Prop :=
  1 <= month f <= 12 /\ 1 <= day f <= month_length (year f) (month f) /\ 0 <= hour f < 24 /\ 0 <= minute f < 60 /\ 0 <= second f < 60.
(** Days of the year before the month. *)
Definition before_month (y m : Z) : Z :=
  List.nth (Z.to_nat (m - 1)) (0 :: 31 :: 59 :: 90 :: 120 :: 151 :: 181 :: 212 :: 243 :: 273 :: 304 :: 334 :: nil)%list 0 + (if (2 <? m) && leap y then 1 else 0).
(** Seconds since the epoch (IEEE Std 1003.1, 4.16). *)
Definition before_year (y : Z) : Z := 365 * (y - 1970) + (y - 1969) / 4 - (y - 1901) / 100 + (y - 1601) / 400.
Definition posix_seconds (f : tm) : Z :=
  second f + 60 * minute f + 3600 * hour f + 86400 * (before_year (year f) + before_month (year f) (month f) + day f - 1).
(** The result of gmtime. *)
Definition broken_down (sec : Z) (f : tm) : Prop := valid_tm f /\ posix_seconds f = sec.

(** Keys whose padded names coincide. *)
Definition partner (a b : Z) : Prop := b = 10 * a /\ (100 <= a <= 999 \/ -99 <= a <= -10).

(** [name] is the log id of the second [sec], in a year of four digits. *)
Definition id_of (sec : Z) (name : string) : Prop := exists f, broken_down sec f /\ 0 <= year f < 10000 /\ name = log_id f.
(** The path does not end in a slash. *)
Definition plain_dir (d : string) : Prop := forall x, (d <> x ++ "/")%string.
(** [path] is the newest of the logs [entries] in the directory [dir]. *)
Definition newest (dir : string) (entries : list string) (path : string) : Prop :=
  exists sec name, In name entries /\ id_of sec name /\ (path = dir ++ "/" ++ name)%string /\
  forall sec' name', In name' entries -> id_of sec' name' -> sec' <= sec.
