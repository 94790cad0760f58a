(** Model of the names in common/logging: logKeyName (log_key.h), createLogId
    (log_writer.cxx), isLogId and getLatestLog (log_reader.cxx), and the choice of a
    log in log_reader.py. *)
From Coq Require Import Ascii String ZArith List Bool Decimal DecimalString.
Import ListNotations.
Local Open Scope string_scope.

(** An int in decimal, as fmt prints it. *)
Definition dec (z : Z) : string := NilZero.string_of_int (Z.to_int z).
Fixpoint rep (n : nat) (c : ascii) : string := match n with O => "" | S m => String c (rep m c) end.
(** {:0^4} and {:0>n}: padding with the character 0; centred, the left half is the
    smaller one (fmt 6: left padding = padding / 2). *)
Definition centred (w : nat) (s : string) : string :=
  let p := (w - String.length s)%nat in rep (p / 2) "0" ++ s ++ rep (p - p / 2) "0".
Definition right (w : nat) (s : string) : string := rep (w - String.length s) "0" ++ s.

(** log_key.h:11-25 the enumerators in order, with log_key.h:27-57 their names *)
Definition key_names : list string :=
  ["IMU_SAMPLE"; "GNSS_OBS"; "GPS_EPH"; "GAL_EPH"; "GLO_EPH"; "TRUTH_POSE"; "GPS_OBS_RESIDUAL"; "GAL_OBS_RESIDUAL"; "GLO_OBS_RESIDUAL";
   "POINT_POS_RESIDUAL"; "FIX_AND_HOLD_RESIDUAL"; "ESTIMATE"].
(** log_key.h:27-57 *)
Definition logKeyName (k : Z) : string :=
  if (0 <=? k)%Z && (k <? 12)%Z then nth (Z.to_nat k) key_names "" else "LOG_KEY_" ++ centred 4 (dec k).

(** The members of struct tm that are used, with the year and the month as printed. *)
Record tm := mkTm { year : Z; month : Z; day : Z; hour : Z; minute : Z; second : Z }.
(** log_writer.cxx:75-84 createLogId, from the result of gmtime *)
Definition log_id (f : tm) : string :=
  right 4 (dec (year f)) ++ right 2 (dec (month f)) ++ right 2 (dec (day f)) ++ "_" ++
  right 2 (dec (hour f)) ++ right 2 (dec (minute f)) ++ right 2 (dec (second f)).

Definition digit (c : ascii) : bool := let n := N_of_ascii c in ((48 <=? n) && (n <=? 57))%N.
(** [s] starts with [n] digits; the rest. *)
Fixpoint digits (n : nat) (s : string) : option string :=
  match n, s with O, _ => Some s | S m, String c r => if digit c then digits m r else None | S _, EmptyString => None end.
(** log_reader.cxx:27-31: \d{8}_\d{6} matches the whole string *)
Definition isLogId (s : string) : bool :=
  match digits 8 s with
  | Some (String c r) => if Ascii.eqb c "_" then match digits 6 r with Some "" => true | _ => false end else false
  | _ => false
  end.

(** The part after the last [c], if there is one; before and after. *)
Fixpoint split_last (c : ascii) (s : string) : option (string * string) :=
  match s with
  | "" => None
  | String a r =>
      match split_last c r with
      | Some (x, y) => Some (String a x, y)
      | None => if Ascii.eqb a c then Some ("", r) else None
      end
  end.
(** std::experimental::filesystem::path::filename: "." for a path ending in a slash *)
Definition filename (p : string) : string :=
  match split_last "/" p with Some (_, "") => "." | Some (_, f) => f | None => p end.
Definition stem (p : string) : string :=
  let f := filename p in
  if String.eqb f "." || String.eqb f ".." then f else match split_last "." f with Some (x, _) => x | None => f end.
(** operator/ *)
Definition join (d name : string) : string :=
  match split_last "/" d with Some (_, "") => d ++ name | _ => d ++ "/" ++ name end.

(** std::sort and back(): the greatest string; [None]: back() of an empty vector *)
Fixpoint greatest (l : list string) : option string :=
  match l with
  | [] => None
  | x :: r => match greatest r with None => Some x | Some y => Some (if String.ltb x y then y else x) end
  end.
(** log_reader.cxx:33-50 getLatestLog.  [entries]: the names in the directory. *)
Definition getLatestLog (path : string) (entries : list string) : option string :=
  if isLogId (stem path) then Some path
  else greatest (map (join path) (filter (fun n => isLogId (stem (join path n))) entries)).

(** log_reader.py: re.search(r'\d{8}_\d{6}\/?$', path): some suffix matches (a newline
    at the end and digits outside ASCII left out) *)
Definition py_tail (s : string) : bool :=
  match digits 8 s with
  | Some (String c r) => if Ascii.eqb c "_" then match digits 6 r with Some "" => true | Some "/" => true | _ => false end else false
  | _ => false
  end.
Fixpoint py_is_log (s : string) : bool := py_tail s || match s with "" => false | String _ r => py_is_log r end.
(** log_reader.py:71-76 load, with the check of get_log_files (49-51): the directory
    chosen; os.path.join as [join] (the path is not empty); [None]: an exception *)
Definition py_choose (path : string) (entries : list string) : option string :=
  if py_is_log path then Some path
  else match greatest entries with
       | Some n => if py_is_log (join path n) then Some (join path n) else None
       | None => None
       end.
