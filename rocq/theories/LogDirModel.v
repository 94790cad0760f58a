(** Model of the directories of logs: Logger in common/logging/log_writer.{h,cxx},
    LogReader::openLog in common/logging/log_reader.cxx and get_log_files in
    common/logging/log_reader.py.

    A file system maps the paths of log directories to the files in them.  Bytes
    written to a stream are in its file at once (buffers of ofstream are left out);
    stream files hold bytes and .yml files the key and the number of records.  Errors
    of the file system are left out. *)
From Coq Require Import String ZArith NArith List Bool.
From Verif Require Import UtcTimeModel LogNameModel.
Import ListNotations.
Local Open Scope string_scope.
Local Open Scope list_scope.

(** The parts of manifest.yml that are read: start_time, end_time, keys with
    key_names, amends.  Without a push_back there is no node "keys": here the empty
    list. *)
Record manifest := mkMan { m_start : utc; m_end : utc; m_keys : list Z; m_names : list string; m_amends : option string }.
(** name.log and name.yml (key, num_records) by name. *)
Record dir := mkDir { d_manifest : option manifest; d_log : list (string * list N); d_yml : list (string * (Z * Z)) }.
Definition fs := list (string * dir).

Section Map.
Context {A : Type}.
Fixpoint find (k : string) (l : list (string * A)) : option A :=
  match l with [] => None | (x, a) :: r => if String.eqb x k then Some a else find k r end.
Definition remove (k : string) (l : list (string * A)) : list (string * A) := filter (fun e => negb (String.eqb (fst e) k)) l.
Definition put (k : string) (a : A) (l : list (string * A)) : list (string * A) := (k, a) :: remove k l.
End Map.

(** log_writer.h:53-58 a stream: the directory of filename_, key, num_records_ *)
Record wstream := mkW { w_dir : string; w_key : Z; w_num : Z }.
(** log_writer.h:121-125; the manifest without its end time *)
Record logger := mkLogger { l_dir : string; l_start : utc; l_keys : list Z; l_amends : option string; l_streams : list wstream }.

(** Change a directory; a file cannot be created in a directory that is not there. *)
Definition in_dir (d : string) (f : dir -> dir) (s : fs) : fs := match find d s with None => s | Some x => put d (f x) s end.

(** log_writer.cxx:17-27 open, with createLogId at log_writer.cxx:75-84 and
    createManifest at 38-48; [f]: the fields gmtime gives for start_time *)
Definition open_log (base : string) (f : tm) (start : utc) (old : list wstream) (s : fs) : logger * fs :=
  let d := join base (log_id f) in
  (mkLogger d start [] None old, put d (mkDir None [] []) (remove d s)).
(** log_writer.h:86-97 initStream; [None]: the check fails.  Opening the stream file
    truncates it. *)
Fixpoint w_find (k : Z) (l : list wstream) : option wstream :=
  match l with [] => None | w :: r => if (w_key w =? k)%Z then Some w else w_find k r end.
Definition init_stream (k : Z) (l : logger) (s : fs) : option (logger * fs) :=
  match w_find k (l_streams l) with
  | Some _ => None
  | None => Some (mkLogger (l_dir l) (l_start l) (l_keys l ++ [k]) (l_amends l) (l_streams l ++ [mkW (l_dir l) k 0]),
                  in_dir (l_dir l) (fun x => mkDir (d_manifest x) (put (logKeyName k) [] (d_log x)) (d_yml x)) s)
  end.
(** log_writer.h:106-118 log, the serialised record given as [bytes]; they are lost if
    the file was removed *)
Fixpoint w_count (k : Z) (l : list wstream) : list wstream :=
  match l with [] => [] | w :: r => if (w_key w =? k)%Z then mkW (w_dir w) k (w_num w + 1) :: r else w :: w_count k r end.
Definition append_file (n : string) (bytes : list N) (x : dir) : dir :=
  match find n (d_log x) with Some b => mkDir (d_manifest x) (put n (b ++ bytes) (d_log x)) (d_yml x) | None => x end.
Definition log_record (k : Z) (bytes : list N) (l : logger) (s : fs) : option (logger * fs) :=
  match w_find k (l_streams l) with
  | None => None
  | Some w => Some (mkLogger (l_dir l) (l_start l) (l_keys l) (l_amends l) (w_count k (l_streams l)), in_dir (w_dir w) (append_file (logKeyName k) bytes) s)
  end.
(** log_writer.cxx:61-67; [other]: the result of fs::canonical *)
Definition amend (other : string) (l : logger) : logger := mkLogger (l_dir l) (l_start l) (l_keys l) (Some other) (l_streams l).
(** log_writer.cxx:6-15 ~Stream *)
Definition end_stream (w : wstream) (s : fs) : fs :=
  in_dir (w_dir w) (fun x => mkDir (d_manifest x) (d_log x) (put (logKeyName (w_key w)) (w_key w, w_num w) (d_yml x))) s.
(** log_writer.cxx:29-36 close, with writeManifest at 50-59 *)
Definition close_log (t_end : utc) (l : logger) (s : fs) : logger * fs :=
  (mkLogger (l_dir l) (l_start l) (l_keys l) (l_amends l) [],
   in_dir (l_dir l) (fun x => mkDir (Some (mkMan (l_start l) t_end (l_keys l) (map logKeyName (l_keys l)) (l_amends l))) (d_log x) (d_yml x))
          (fold_left (fun s w => end_stream w s) (l_streams l) s)).

(** Calls on a Logger after its constructor.  [Destroy now] is ~Logger
    (log_writer.h:66) at the time [now]; nothing follows it. *)
Inductive op := Open (base : string) (f : tm) (start : utc) | Init (k : Z) | Rec (k : Z) (bytes : list N) | Amends (other : string) | Close (t : utc) | Destroy (now : utc).
(** [None]: a check fails and the process exits. *)
Definition step (o : op) (st : logger * fs) : option (logger * fs) :=
  let (l, s) := st in
  match o with
  | Open base f start => Some (open_log base f start (l_streams l) s)
  | Init k => init_stream k l s
  | Rec k bytes => log_record k bytes l s
  | Amends other => Some (amend other l, s)
  | Close t => Some (close_log t l s)
  | Destroy now => Some (close_log now l s)
  end.
Fixpoint run (ops : list op) (st : logger * fs) : option (logger * fs) :=
  match ops with [] => Some st | o :: r => match step o st with None => None | Some st' => run r st' end end.
(** log_writer.h:63-64: the constructor *)
Definition construct (base : string) (f : tm) (start : utc) (s : fs) : logger * fs := open_log base f start [] s.

(** ** Reading *)
(** utctime.h:88-89 *)
Definition utc_max : utc := mkUtc (2 ^ 63 - 1) 999999999.
Definition utc_min : utc := mkUtc (- 2 ^ 63) 0.
(** std::min(a, b) and std::max(a, b) *)
Definition min_time (a b : utc) : utc := if lt b a then b else a.
Definition max_time (a b : utc) : utc := if lt a b then b else a.
(** log_reader.h:113-122: start_time_, end_time_, streams_ as keys with their files,
    amends_ *)
Record reader := mkReader { r_start : utc; r_end : utc; r_streams : list (Z * string); r_amends : list string }.
Definition reader0 : reader := mkReader utc_max utc_min [] [].
(** unordered_map::emplace does nothing if the key is there *)
Definition emplace (k : Z) (p : string) (l : list (Z * string)) : list (Z * string) :=
  if existsb (fun e => fst e =? k)%Z l then l else l ++ [(k, p)].
(** The result: an opened log, an exception or a failed check, or still running. *)
Inductive outcome (A : Type) := Opened (a : A) | Failed | Running.
Arguments Opened {A}. Arguments Failed {A}. Arguments Running {A}.
(** log_reader.cxx:100-138 openLog, with at most [fuel] recursive calls *)
Fixpoint openLog (fuel : nat) (d : string) (s : fs) (r : reader) : outcome reader :=
  match fuel with
  | O => Running
  | S n =>
      match find d s with
      | None => Failed
      | Some x =>
          match d_manifest x with
          | None => Failed
          | Some m =>
              match m_keys m with
              | [] => Failed
              | _ =>
                  let r1 := mkReader (min_time (r_start r) (m_start m)) (max_time (r_end r) (m_end m))
                                     (fold_left (fun l k => emplace k (join d (logKeyName k ++ ".log")) l) (m_keys m) (r_streams r)) (r_amends r) in
                  match m_amends m with
                  | None => Opened r1
                  | Some a => openLog n a s (mkReader (r_start r1) (r_end r1) (r_streams r1) (r_amends r1 ++ [a]))
                  end
              end
          end
      end
  end.
(** log_reader.py:49-68 get_log_files: a dictionary as a list in which the first entry
    of a key counts; the paths are without extension *)
Definition py_zip (d : string) (m : manifest) : list (Z * string) :=
  fold_left (fun acc e => (fst e, join d (snd e)) :: acc) (combine (m_keys m) (m_names m)) [].
Fixpoint get_log_files (fuel : nat) (d : string) (s : fs) : outcome (list (Z * string)) :=
  match fuel with
  | O => Running
  | S n =>
      if py_is_log d then
        match find d s with
        | None => Failed
        | Some x =>
            match d_manifest x with
            | None => Failed
            | Some m =>
                match m_keys m with
                | [] => Failed
                | _ =>
                    match m_amends m with
                    | None => Opened (py_zip d m)
                    | Some a => match get_log_files n a s with Opened older => Opened (py_zip d m ++ older) | Failed => Failed | Running => Running end
                    end
                end
            end
        end
      else Failed
  end.
Fixpoint lookup (k : Z) (l : list (Z * string)) : option string :=
  match l with [] => None | (x, p) :: r => if (x =? k)%Z then Some p else lookup k r end.
