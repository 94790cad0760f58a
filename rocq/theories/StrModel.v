(** Model of utils/split_string.cxx, utils/strip_string.cxx and ms_to_stamp of
    utils/progress_bar.cxx. *)
From Coq Require Import ZArith String Ascii List Bool.
From Verif Require Import LogNameModel.
Import ListNotations.
Local Open Scope string_scope.

(** split_string.cxx:10-20.  std::getline reads up to the delimiter, which it removes, or to the
    end; at the end with nothing read it fails. *)
Fixpoint split_from (d : ascii) (token s : string) : list string :=
  match s with
  | "" => match token with "" => [] | _ => [token] end
  | String c r => if Ascii.eqb c d then token :: split_from d "" r else split_from d (token ++ String c "") r
  end.
Definition split_string (s : string) (d : ascii) : list string := split_from d "" s.

(** strip_string.cxx:3-24 *)
Fixpoint strip_from (out s : string) (bad : list ascii) : string :=
  match s with
  | "" => out
  | String c r => strip_from (if existsb (fun b => Ascii.eqb b c) bad then out else out ++ String c "") r bad
  end.
Definition strip_string (s : string) (bad : list ascii) : string := strip_from "" s bad.

Local Open Scope Z_scope.
(** progress_bar.cxx:118-144; % and / of C++ on non-negative numbers *)
Definition ms_to_stamp (ms : Z) : string :=
  if ms <=? 0 then ""
  else
    let millis := ms mod 1000 in
    let sec := ((ms - millis) mod (60 * 1000)) / 1000 in
    let min := ((ms - (millis + sec * 1000)) mod (60 * 60 * 1000)) / (60 * 1000) in
    let hour := ((ms - (millis + (sec + min * 60) * 1000)) mod (24 * 60 * 60 * 1000)) / (60 * 60 * 1000) in
    let day := ((ms - (millis + (sec + (min + hour * 60) * 60) * 1000)) / (24 * 60 * 60 * 1000)) / (24 * 60 * 60 * 1000) in
    if 0 <? day then dec day ++ ":" ++ dec hour ++ ":" ++ right 2 (dec min) ++ ":" ++ right 2 (dec sec) ++ ":" ++ right 3 (dec millis)
    else if 0 <? hour then dec hour ++ ":" ++ right 2 (dec min) ++ ":" ++ right 2 (dec sec) ++ ":" ++ right 3 (dec millis)
    else if 0 <? min then dec min ++ ":" ++ right 2 (dec sec) ++ ":" ++ right 3 (dec millis)
    else if 0 <? sec then dec sec ++ ":" ++ right 3 (dec millis)
    else dec millis.
