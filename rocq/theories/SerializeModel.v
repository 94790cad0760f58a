(** Model of common/logging/serialize.{h,cxx}, common/logging/log_format.{h,cxx}
    and the layout part of common/logging/log_reader.py.

    Integers are mathematical integers, a float or double is the integer whose
    bits are its bit pattern.  Memory is little endian (the only byte order the
    code runs on).  An Eigen object is the list of its elements in storage order.
    An object of a class is the list of its named members. *)
From Coq Require Import String ZArith NArith List Bool.
Import ListNotations.
Local Open Scope string_scope.
Local Open Scope list_scope.
Local Open Scope nat_scope.

(** log_format.h:46-58 (the enumeration) *)
Inductive prim := FP64 | FP32 | INT64 | INT32 | INT16 | INT8 | UINT64 | UINT32 | UINT16 | UINT8.
(** log_format.h:59-72: get_type<T>::value *)
Definition code (p : prim) : Z :=
  match p with FP64 => 0 | FP32 => 1 | INT64 => 2 | INT32 => 3 | INT16 => 4 | INT8 => 5 | UINT64 => 6 | UINT32 => 7 | UINT16 => 8 | UINT8 => 9 end.
(** sizeof *)
Definition width (p : prim) : nat :=
  match p with FP64 | INT64 | UINT64 => 8 | FP32 | INT32 | UINT32 => 4 | INT16 | UINT16 => 2 | INT8 | UINT8 => 1 end.
Definition signed (p : prim) : bool := match p with INT64 | INT32 | INT16 | INT8 => true | _ => false end.

(** The bytes of an object of a scalar type, and the object with given bytes. *)
Fixpoint le (n : nat) (x : N) : list N := match n with O => [] | S n' => (x mod 256)%N :: le n' (x / 256)%N end.
Fixpoint unle (l : list N) : N := match l with [] => 0%N | b :: t => (b + 256 * unle t)%N end.
Definition modulus (p : prim) : Z := (2 ^ (8 * Z.of_nat (width p)))%Z.
Definition enc (p : prim) (z : Z) : list N := le (width p) (Z.to_N (z mod modulus p)).
Definition dec (p : prim) (l : list N) : Z :=
  let u := Z.of_N (unle l) in if signed p && (modulus p / 2 <=? u)%Z then (u - modulus p)%Z else u.
(** [n] consecutive scalars *)
Definition encs (p : prim) (l : list Z) : list N := flat_map (enc p) l.
Fixpoint decs (p : prim) (n : nat) (l : list N) : list Z :=
  match n with O => [] | S n' => dec p (firstn (width p) l) :: decs p n' (skipn (width p) l) end.

Inductive value := Num (z : Z) | Arr (l : list Z) | Obj (m : list (string * value)).
Definition num (v : value) : Z := match v with Num z => z | _ => 0%Z end.
Definition arr (v : value) : list Z := match v with Arr l => l | _ => [] end.
Fixpoint find {A} (n : string) (m : list (string * A)) : option A :=
  match m with [] => None | (k, x) :: t => if String.eqb k n then Some x else find n t end.
Fixpoint put {A} (n : string) (x : A) (m : list (string * A)) : list (string * A) :=
  match m with [] => [(n, x)] | (k, y) :: t => if String.eqb k n then (n, x) :: t else (k, y) :: put n x t end.
Definition get (n : string) (v : value) : value :=
  match v with Obj m => match find n m with Some x => x | None => Num 0 end | _ => Num 0 end.
Definition set (n : string) (x v : value) : value :=
  match v with Obj m => Obj (put n x m) | _ => Obj [(n, x)] end.

(** A type for which serialize and deserialize exist: a scalar, an Eigen object of
    fixed size, one of dynamic size (or a std::vector, std::string), a class with
    the members DEF_SERIALIZE lists for it, in that order, and DQuat. *)
Inductive ty := Prim (p : prim) | Mat (p : prim) (rows cols : nat) | Dyn (p : prim) | Struct (fs : list (string * ty)) | Dual.

(** std::istream::read on a file: [rest] is what follows the read position.  A read
    that reaches the end stores what there is and sets eofbit and failbit; later
    reads store nothing. *)
Record istream := mkStream { rest : list N; eof : bool }.
Definition read_bytes (n : nat) (old : list N) (s : istream) : list N * istream :=
  if eof s then (old, s)
  else if n <=? length (rest s) then (firstn n (rest s), mkStream (skipn n (rest s)) false)
  else (rest s ++ skipn (length (rest s)) old, mkStream [] true).

Section WithDualQuaternion.
(** dquat.h:137 DQuat::translation as a function of the bit patterns of the real
    and dual part, dquat.h:69-75 the dual part computed by the constructor
    DQuat(q, t), and the contents of an uninitialised Vec3. *)
Variable translation : list Z -> list Z -> list Z.
Variable dual : list Z -> list Z -> list Z.
Variable junk : list Z.

(** The double 1.0 *)
Definition one : Z := 0x3FF0000000000000.

(** serialize.h:48-60 (template), serialize.cxx:73-80 (DEF_SERIALIZE), 91-95 (DQuat) *)
Fixpoint ser (t : ty) (v : value) : list N :=
  match t with
  | Prim p => enc p (num v)
  | Mat p _ _ => encs p (arr v)
  | Dyn p => encs p (arr v)
  | Struct fs =>
      (fix go (fs : list (string * ty)) : list N :=
         match fs with [] => [] | (n, u) :: r => ser u (get n v) ++ go r end) fs
  | Dual =>
      let r := arr (get "arr_" (get "r_" v)) in let d := arr (get "arr_" (get "d_" v)) in
      encs FP64 r ++ encs FP64 (translation r d)
  end.

(** serialize.h:80-92 (template), serialize.cxx:80 (DEF_SERIALIZE), 96-102 (DQuat).
    [o] is the object before the call.  A dynamic Eigen object is read with the
    size it has. *)
Fixpoint des (t : ty) (o : value) (s : istream) : value * istream :=
  match t with
  | Prim p => let (b, s') := read_bytes (width p) (enc p (num o)) s in (Num (dec p b), s')
  | Mat p r c => let (b, s') := read_bytes (r * c * width p) (encs p (arr o)) s in (Arr (decs p (r * c) b), s')
  | Dyn p => let (b, s') := read_bytes (length (arr o) * width p) (encs p (arr o)) s in (Arr (decs p (length (arr o)) b), s')
  | Struct fs =>
      (fix go (fs : list (string * ty)) (o : value) (s : istream) : value * istream :=
         match fs with
         | [] => (o, s)
         | (n, u) :: r => let (x, s') := des u (get n o) s in go r (set n x o) s'
         end) fs o s
  | Dual =>
      let (bq, s1) := read_bytes (4 * 8) (encs FP64 [one; 0; 0; 0]%Z) s in
      let (bt, s2) := read_bytes (3 * 8) (encs FP64 junk) s1 in
      let q := decs FP64 4 bq in let x := decs FP64 3 bt in
      (Obj [("r_", Obj [("arr_", Arr q)]); ("d_", Obj [("arr_", Arr (dual q x))])], s2)
  end.

(** serialize.h:62-67 log, 94-99 read *)
Fixpoint log_all (l : list (ty * value)) : list N :=
  match l with [] => [] | (t, v) :: r => ser t v ++ log_all r end.
Fixpoint read_all (l : list (ty * value)) (s : istream) : list value * istream :=
  match l with [] => ([], s) | (t, o) :: r => let (v, s1) := des t o s in let (vs, s2) := read_all r s1 in (v :: vs, s2) end.
End WithDualQuaternion.

(** Members named in a DEF_SERIALIZE, with their declared types. *)
Fixpoint pick (decl : list (string * ty)) (names : list string) : list (string * ty) :=
  match names with
  | [] => []
  | n :: r => (match find n decl with Some t => [(n, t)] | None => [] end) ++ pick decl r
  end.
Definition of_type (t : ty) (names : list string) : list (string * ty) := map (fun n => (n, t)) names.

(** utctime.h:21-22; serialize.cxx:84-85 *)
Definition tUTC : ty := Struct (pick (of_type (Prim INT64) ["sec"; "nsec"]) ["sec"; "nsec"]).
(** matrix_defs.h:11 *)
Definition tVec3 : ty := Mat FP64 3 1.
(** measurements/imu.h:13-15; serialize.cxx:82 *)
Definition imu_members : list (string * ty) := [("t", tUTC); ("accel", tVec3); ("gyro", tVec3)].
Definition tImu : ty := Struct (pick imu_members ["t"; "accel"; "gyro"]).
(** measurements/gnss_observation.h:13-20; serialize.cxx:83 *)
Definition obs_members : list (string * ty) :=
  ("t", tUTC) :: of_type (Prim UINT8) ["gnss_id"; "sat_num"] ++ of_type (Prim FP64) ["freq"; "pseudorange"; "doppler"; "carrier_phase"].
Definition tObs : ty := Struct (pick obs_members ["t"; "gnss_id"; "sat_num"; "freq"; "pseudorange"; "doppler"; "carrier_phase"]).
(** quat.h:62; serialize.cxx:86 *)
Definition tQuat : ty := Struct (pick [("arr_", Mat FP64 4 1)] ["arr_"]).
(** dquat.h:28 TangentVector; jet.h:14-15, two_jet.h:14-16; serialize.cxx:87-88 *)
Definition tTangent : ty := Mat FP64 6 1.
Definition jet_members : list (string * ty) := [("x", Dual); ("dx", tTangent)].
Definition tJet : ty := Struct (pick jet_members ["x"; "dx"]).
Definition twojet_members : list (string * ty) := [("x", Dual); ("dx", tTangent); ("d2x", tTangent)].
Definition tTwoJet : ty := Struct (pick twojet_members ["x"; "dx"; "d2x"]).

(** eph.h:31-33, 74-102 *)
Definition base_members : list (string * ty) := of_type (Prim UINT8) ["gnssID"; "sat"] ++ [("toe", tUTC)].
Definition kepler_doubles : list string :=
  ["af2"; "af1"; "af0"; "m0"; "delta_n"; "ecc"; "sqrta"; "omega0"; "i0"; "w"; "omegadot"; "idot"; "cuc"; "cus"; "crc"; "crs"; "cic"; "cis"].
Definition kepler_members : list (string * ty) :=
  base_members ++ [("toc", tUTC); ("tow", Prim UINT32); ("iodc", Prim UINT16); ("iode", Prim UINT8); ("week", Prim UINT16);
    ("toes", Prim UINT32); ("tocs", Prim UINT32)] ++ of_type (Prim FP64) kepler_doubles.
(** gps.h:25-35, 49-58; serialize.cxx:105-110 *)
Definition gps_members : list (string * ty) :=
  kepler_members ++ of_type (Prim UINT8) ["health"; "alert_flag"; "anti_spoof"; "code_on_L2"; "ura"; "L2_P_data_flag"; "fit_interval_flag"] ++
  [("age_of_data_offset", Prim UINT16); ("tgd", Prim FP64)] ++ of_type (Prim UINT8) ["iode1"; "iode2"; "iode3"; "collected_subframes"].
Definition kepler_names : list string :=
  ["gnssID"; "sat"; "toe"; "toc"; "tow"; "iodc"; "iode"; "week"; "toes"; "tocs"] ++ kepler_doubles.
Definition gps_names : list string :=
  kepler_names ++ ["health"; "alert_flag"; "anti_spoof"; "code_on_L2"; "ura"; "L2_P_data_flag"; "fit_interval_flag"; "age_of_data_offset"; "tgd"].
Definition tGps : ty := Struct (pick gps_members gps_names).
(** galileo.h:37-45, 57-69; serialize.cxx:111-115 *)
Definition gal_members : list (string * ty) :=
  kepler_members ++ of_type (Prim FP64) ["ai0"; "ai1"; "ai2"; "bgd_e1_e5a"; "bgd_e1_e5b"] ++
  of_type (Prim UINT8) ["e5b_hs"; "e1b_hs"; "e5b_dvs"; "e1b_dvs"; "collected_subframes"] ++ [("time_f", Prim INT32); ("iod", Mat INT32 4 1)].
Definition gal_names : list string :=
  kepler_names ++ ["ai0"; "ai1"; "ai2"; "bgd_e1_e5a"; "bgd_e1_e5b"; "e5b_hs"; "e1b_hs"; "e5b_dvs"; "e1b_dvs"].
Definition tGal : ty := Struct (pick gal_members gal_names).
(** glonass.h:23-34, 68-84; serialize.cxx:116-118 *)
Definition glo_members : list (string * ty) :=
  base_members ++ of_type (Prim INT32) ["iode"; "slot"; "svh"; "sva"; "age"] ++ [("tof", tUTC)] ++ of_type tVec3 ["pos"; "vel"; "acc"] ++
  of_type (Prim FP64) ["taun"; "gamn"; "dtaun"] ++ [("frame_flags_", Prim UINT8)] ++
  of_type (Prim INT32) ["time_mark_"; "tk_h_"; "tk_m_"; "tk_s_"; "tb_"; "NT_"; "N4_"; "NA_"].
Definition glo_names : list string :=
  ["gnssID"; "sat"; "toe"; "iode"; "slot"; "svh"; "sva"; "age"; "toe"; "tof"; "pos"; "vel"; "acc"; "taun"; "gamn"; "dtaun"].
Definition tGlo : ty := Struct (pick glo_members glo_names).

(** ** The declared layout *)

(** A YAML node; maps keep the order of insertion.  Writing the file and loading
    it with PyYAML is taken to give the same node. *)
Inductive yaml := YInt (z : Z) | YMap (l : list (string * yaml)).
(** node["a"] = x; node["b"] = y; ... *)
Definition node (l : list (string * yaml)) : yaml := YMap (fold_left (fun m kx => put (fst kx) (snd kx) m) l []).

(** log_format.h:96-102, 87-94, 104-111 *)
Definition format_prim (p : prim) : yaml := node [("type", YInt (code p))].
Definition format_mat (p : prim) (rows cols : nat) : yaml :=
  node [("type", YInt (code p)); ("rows", YInt (Z.of_nat rows)); ("cols", YInt (Z.of_nat cols))].
Definition format_ptr (p : prim) (size : nat) : yaml := node [("type", YInt (code p)); ("rows", YInt (Z.of_nat size))].
(** log_format.cxx:20-26 *)
Definition format_utc : yaml := node [("sec", format_prim INT64); ("nsec", format_prim INT64)].
Definition format_vec3 : yaml := format_mat FP64 3 1.
(** The format of a declared member. *)
Definition format_member (t : ty) : yaml :=
  match t with
  | Prim p => format_prim p
  | Mat p r c => format_mat p r c
  | Dyn p => format_mat p 0 1
  | Struct _ => format_utc
  | Dual => YMap []
  end.
(** node["name"] = format(eph.member) for each pair *)
Definition format_fields (decl : list (string * ty)) (l : list (string * string)) : yaml :=
  node (map (fun nm => (fst nm, match find (snd nm) decl with Some t => format_member t | None => YMap [] end)) l).
Definition same_name (l : list string) : list (string * string) := map (fun n => (n, n)) l.
(** log_format.cxx:28-73 *)
Definition format_gps : yaml :=
  format_fields gps_members (("gnss_id", "gnssID") :: same_name (tl gps_names ++ ["iode1"; "iode2"; "iode3"; "collected_subframes"])).
(** log_format.cxx:74-122 *)
Definition format_gal : yaml :=
  match format_fields gal_members (("gnss_id", "gnssID") :: same_name (tl gal_names ++ ["collected_subframes"; "time_f"])) with
  | YMap m => YMap (put "iod" (format_ptr INT32 4) m)
  | y => y
  end.
(** log_format.cxx:124-156 *)
Definition format_glo : yaml :=
  format_fields glo_members ([("gnss_id", "gnssID"); ("sat", "sat"); ("toe", "toe")] ++
    same_name ["iode"; "slot"; "svh"; "sva"; "age"; "tof"; "pos"; "vel"; "acc"; "taun"; "gamn"; "dtaun"] ++
    [("frame_flags", "frame_flags_"); ("time_mark", "time_mark_"); ("tk_h", "tk_h_"); ("tk_m", "tk_m_"); ("tk_s", "tk_s_"); ("tb", "tb_");
     ("NT", "NT_"); ("N4", "N4_"); ("NA", "NA_")]).
(** log_format.cxx:158-165, 167-178 *)
Definition format_imu : yaml := format_fields imu_members (same_name ["t"; "accel"; "gyro"]).
Definition format_obs : yaml :=
  format_fields obs_members (same_name ["t"; "gnss_id"; "sat_num"; "freq"; "pseudorange"; "doppler"; "carrier_phase"]).
(** log_format.cxx:180-188, 190-196, 198-204, 206-220 *)
Definition format_quat : yaml := node [("w", format_prim FP64); ("x", format_prim FP64); ("y", format_prim FP64); ("z", format_prim FP64)].
Definition format_dquat : yaml := node [("rot", format_quat); ("trans", format_vec3)].
Definition format_tangent : yaml := node [("angular", format_vec3); ("linear", format_vec3)].
Definition format_jet : yaml := node [("x", format_dquat); ("dx", format_tangent)].
Definition format_twojet : yaml := node [("x", format_dquat); ("dx", format_tangent); ("d2x", format_tangent)].

(** The argument types of a stream: the overloads of format and serialize. *)
Inductive arg := AScalar (p : prim) | AMat (p : prim) (rows cols : nat) | ADyn (p : prim) | AUTC | AImu | AObs | AQuat | ADQuat | AJet
  | ATwoJet | AGps | AGal | AGlo.
Definition arg_ty (a : arg) : ty :=
  match a with
  | AScalar p => Prim p | AMat p r c => Mat p r c | ADyn p => Dyn p | AUTC => tUTC | AImu => tImu | AObs => tObs | AQuat => tQuat
  | ADQuat => Dual | AJet => tJet | ATwoJet => tTwoJet | AGps => tGps | AGal => tGal | AGlo => tGlo
  end.
(** makeFormat formats default constructed objects (log_format.h:142-145): a dynamic
    Eigen vector then has no rows. *)
Definition arg_format (a : arg) : yaml :=
  match a with
  | AScalar p => format_prim p | AMat p r c => format_mat p r c | ADyn p => format_mat p 0 1 | AUTC => format_utc | AImu => format_imu
  | AObs => format_obs | AQuat => format_quat | ADQuat => format_dquat | AJet => format_jet | ATwoJet => format_twojet
  | AGps => format_gps | AGal => format_gal | AGlo => format_glo
  end.
(** log_format.h:124-145; [None]: the check on the reserved name fails *)
Fixpoint add_fields (l : list (string * arg)) (m : list (string * yaml)) : option (list (string * yaml)) :=
  match l with
  | [] => Some m
  | (n, a) :: r => if String.eqb n "t" then None else add_fields r (put n (arg_format a) m)
  end.
Definition makeFormat (l : list (string * arg)) : option yaml :=
  match add_fields l [("t", format_utc)] with Some m => Some (YMap m) | None => None end.

(** log_reader.py:9-20 DATATYPES *)
Definition datatype (z : Z) : option prim :=
  match z with 0 => Some FP64 | 1 => Some FP32 | 2 => Some INT64 | 3 => Some INT32 | 4 => Some INT16 | 5 => Some INT8
  | 6 => Some UINT64 | 7 => Some UINT32 | 8 => Some UINT16 | 9 => Some UINT8 | _ => None end%Z.
(** numpy dtypes *)
Inductive dtype := DScalar (p : prim) | DVec (p : prim) (n : nat) | DMat (p : prim) (rows cols : nat) | DRec (l : list (string * dtype)).
Definition has {A} (n : string) (m : list (string * A)) : bool := match find n m with Some _ => true | None => false end.
Definition int_of (n : string) (m : list (string * yaml)) : option Z := match find n m with Some (YInt z) => Some z | _ => None end.
Definition type_of (m : list (string * yaml)) : option prim := match int_of "type" m with Some z => datatype z | None => None end.
Definition size_of (n : string) (m : list (string * yaml)) : option nat :=
  match int_of n m with Some z => if (0 <=? z)%Z then Some (Z.to_nat z) else None | None => None end.
(** log_reader.py:23-37; [None]: an exception *)
Fixpoint make_dtype (y : yaml) : option dtype :=
  match y with
  | YInt _ => None
  | YMap m =>
      if has "cols" m then
        match type_of m, size_of "rows" m, size_of "cols" m with Some p, Some r, Some c => Some (DMat p r c) | _, _, _ => None end
      else if has "rows" m then match type_of m, size_of "rows" m with Some p, Some n => Some (DVec p n) | _, _ => None end
      else if has "type" m then match type_of m with Some p => Some (DScalar p) | None => None end
      else
        match m with
        | [(_, x)] => make_dtype x
        | _ =>
            match (fix go (l : list (string * yaml)) : option (list (string * dtype)) :=
                     match l with
                     | [] => Some []
                     | (n, x) :: r => match make_dtype x, go r with Some d, Some ds => Some ((n, d) :: ds) | _, _ => None end
                     end) m with
            | Some l => Some (DRec l)
            | None => None
            end
        end
  end.

(** A numpy value; an array of shape (rows, cols) is the list of its rows. *)
Inductive pval := PNum (z : Z) | PVec (l : list Z) | PMat (l : list (list Z)) | PRec (l : list (string * pval)).
Fixpoint itemsize (d : dtype) : nat :=
  match d with
  | DScalar p => width p
  | DVec p n => n * width p
  | DMat p r c => r * c * width p
  | DRec l => (fix go (l : list (string * dtype)) : nat := match l with [] => 0 | (_, x) :: r => itemsize x + go r end) l
  end.
(** numpy reads a packed record; a subarray is stored by rows. *)
Fixpoint rows_of (r c : nat) (l : list Z) : list (list Z) :=
  match r with O => [] | S r' => firstn c l :: rows_of r' c (skipn c l) end.
Fixpoint np_read (d : dtype) (b : list N) : pval :=
  match d with
  | DScalar p => PNum (dec p (firstn (width p) b))
  | DVec p n => PVec (decs p n b)
  | DMat p r c => PMat (rows_of r c (decs p (r * c) b))
  | DRec l =>
      PRec ((fix go (l : list (string * dtype)) (b : list N) : list (string * pval) :=
               match l with [] => [] | (n, x) :: r => (n, np_read x b) :: go r (skipn (itemsize x) b) end) l b)
  end.
(** np.fromfile(path, dtype): as many whole items as the file holds *)
Definition fromfile (d : dtype) (b : list N) : list pval :=
  map (fun k => np_read d (skipn (k * itemsize d) b)) (seq 0 (length b / itemsize d)).
