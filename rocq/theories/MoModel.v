(** Model of LogReader::setMaintenanceCallback (common/logging/log_reader.h:111-115),
    on the readers of [LogDirModel] and the callbacks of [LogModel]. *)
From Coq Require Import ZArith List Bool.
From Verif Require Import UtcTimeModel Float64 LogDirModel LogModel.
Import ListNotations.

(** log_reader.h:111-115.  [None]: the check fails. *)
Definition setMaintenanceCallback (p : b64) (cb : list event -> utc -> bool) (r : reader) (ms : list mcb) : option (list mcb) :=
  if negb (UtcTimeModel.eq (r_start r) utc_min) then Some (ms ++ [mkM p cb (r_start r)]) else None.
(** Several calls, one after another. *)
Fixpoint set_all (calls : list (b64 * (list event -> utc -> bool))) (r : reader) (ms : list mcb) : option (list mcb) :=
  match calls with [] => Some ms | c :: l => match setMaintenanceCallback (fst c) (snd c) r ms with None => None | Some ms' => set_all l r ms' end end.
