(** What is expected of directories of logs. *)
From Coq Require Import String ZArith NArith List Bool.
From Verif Require Import UtcTimeModel UtcTimeSpec LogNameModel LogNameSpec LogDirModel.
Import ListNotations.
Local Open Scope Z_scope.

(** The log at [d] and the logs it amends, newest first. *)
Inductive chain (s : fs) : string -> list (string * manifest) -> Prop :=
| chain_last d x m : find d s = Some x -> d_manifest x = Some m -> m_amends m = None -> chain s d [(d, m)]
| chain_more d x m a rest : find d s = Some x -> d_manifest x = Some m -> m_amends m = Some a -> chain s a rest -> chain s d ((d, m) :: rest).
(** [k] is in the log at [d] and in no newer one. *)
Definition newest_with (k : Z) (d : string) (ds : list (string * manifest)) : Prop :=
  exists pre m post, ds = pre ++ (d, m) :: post /\ In k (m_keys m) /\ forall e, In e pre -> ~ In k (m_keys (snd e)).
Definition proper (e : string * manifest) : Prop :=
  plain_dir (fst e) /\ m_keys (snd e) <> [] /\ normal (m_start (snd e)) /\ normal (m_end (snd e)) /\
  in64 (sec (m_start (snd e))) /\ in64 (sec (m_end (snd e))).
(** [t] is the earliest (latest) of [ts]. *)
Definition earliest (t : utc) (ts : list utc) : Prop := In t ts /\ forall u, In u ts -> instant t <= instant u.
Definition latest (t : utc) (ts : list utc) : Prop := In t ts /\ forall u, In u ts -> instant u <= instant t.

(** The directories that calls open. *)
Definition opened_dirs (ops : list op) : list string :=
  flat_map (fun o => match o with Open base f _ => [join base (log_id f)] | _ => [] end) ops.
(** Calls that add to a log. *)
Definition adds (o : op) : Prop := match o with Init _ | Rec _ _ | Amends _ => True | _ => False end.
Definition no_close (o : op) : Prop := match o with Close _ | Destroy _ => False | _ => True end.
(** The keys initialised, the bytes and the number of records logged to a key, and
    the log amended. *)
Definition keys_of (ops : list op) : list Z := flat_map (fun o => match o with Init k => [k] | _ => [] end) ops.
Definition bytes_of (k : Z) (ops : list op) : list N := flat_map (fun o => match o with Rec j b => if j =? k then b else [] | _ => [] end) ops.
Definition count_of (k : Z) (ops : list op) : Z :=
  Z.of_nat (List.length (filter (fun o => match o with Rec j _ => j =? k | _ => false end) ops)).
Definition amended (ops : list op) : option string :=
  fold_left (fun a o => match o with Amends d => Some d | _ => a end) ops None.
(** The chain from [d] ends, in a log that amends nothing or in one that cannot be
    read. *)
Inductive ends (s : fs) : string -> Prop :=
| ends_missing d : find d s = None -> ends s d
| ends_no_manifest d x : find d s = Some x -> d_manifest x = None -> ends s d
| ends_no_keys d x m : find d s = Some x -> d_manifest x = Some m -> m_keys m = [] -> ends s d
| ends_last d x m : find d s = Some x -> d_manifest x = Some m -> m_amends m = None -> ends s d
| ends_more d x m a : find d s = Some x -> d_manifest x = Some m -> m_amends m = Some a -> ends s a -> ends s d.
