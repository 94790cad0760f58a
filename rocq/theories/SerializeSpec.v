(** What is expected of the log codec and of the layout description. *)
From Coq Require Import String ZArith NArith List Bool.
From Verif Require Import SerializeModel.
Import ListNotations.
Local Open Scope string_scope.
Local Open Scope list_scope.
Local Open Scope nat_scope.

(** The values a variable of scalar type can hold. *)
Definition bits (p : prim) : Z :=
  match p with FP64 | INT64 | UINT64 => 64 | FP32 | INT32 | UINT32 => 32 | INT16 | UINT16 => 16 | INT8 | UINT8 => 8 end.
Definition in_range (p : prim) (z : Z) : Prop :=
  match p with
  | INT64 | INT32 | INT16 | INT8 => (- 2 ^ (bits p - 1) <= z < 2 ^ (bits p - 1))%Z
  | _ => (0 <= z < 2 ^ bits p)%Z
  end.

(** [v] is an object of type [t] (it may have members that are not serialised). *)
Fixpoint has_type (t : ty) (v : value) : Prop :=
  match t with
  | Prim p => exists z, v = Num z /\ in_range p z
  | Mat p r c => exists l, v = Arr l /\ length l = r * c /\ Forall (in_range p) l
  | Dyn p => exists l, v = Arr l /\ Forall (in_range p) l
  | Struct fs => (exists m, v = Obj m) /\
      (fix go (fs : list (string * ty)) : Prop := match fs with [] => True | (n, u) :: r => has_type u (get n v) /\ go r end) fs
  | Dual => exists r d, v = Obj [("r_", Obj [("arr_", Arr r)]); ("d_", Obj [("arr_", Arr d)])] /\
      length r = 4 /\ length d = 4 /\ Forall (in_range FP64) r /\ Forall (in_range FP64) d
  end.
(** Objects that can receive each other's value: dynamic members of equal size. *)
Fixpoint same_size (t : ty) (a b : value) : Prop :=
  match t with
  | Dyn p => length (arr a) = length (arr b)
  | Struct fs => (fix go (fs : list (string * ty)) : Prop := match fs with [] => True | (n, u) :: r => same_size u (get n a) (get n b) /\ go r end) fs
  | _ => True
  end.

Section S.
Variable translation dual : list Z -> list Z -> list Z.
(** [a] is a copy of [b] in every serialised member; the dual part of a dual
    quaternion is recomputed from rotation and translation. *)
Fixpoint copy_of (t : ty) (a b : value) : Prop :=
  match t with
  | Prim _ | Mat _ _ _ | Dyn _ => a = b
  | Struct fs => (fix go (fs : list (string * ty)) : Prop := match fs with [] => True | (n, u) :: r => copy_of u (get n a) (get n b) /\ go r end) fs
  | Dual => get "r_" a = get "r_" b /\
      get "d_" a = Obj [("arr_", Arr (dual (arr (get "arr_" (get "r_" b))) (translation (arr (get "arr_" (get "r_" b))) (arr (get "arr_" (get "d_" b))))))]
  end.

(** What Python should show for a logged value. *)
Definition elem (rows : nat) (l : list Z) (i j : nat) : Z := nth (j * rows + i) l 0%Z.
Definition matrix (rows cols : nat) (l : list Z) : pval :=
  PMat (map (fun i => map (fun j => elem rows l i j) (seq 0 cols)) (seq 0 rows)).
Definition p_num (v : value) : pval := PNum (num v).
Definition p_utc (v : value) : pval := PRec [("sec", p_num (get "sec" v)); ("nsec", p_num (get "nsec" v))].
Definition p_vec3 (v : value) : pval := matrix 3 1 (arr v).
Definition p_quat (v : value) : pval :=
  let a := arr (get "arr_" v) in PRec [("w", PNum (nth 0 a 0%Z)); ("x", PNum (nth 1 a 0%Z)); ("y", PNum (nth 2 a 0%Z)); ("z", PNum (nth 3 a 0%Z))].
Definition p_dquat (v : value) : pval :=
  PRec [("rot", p_quat (get "r_" v)); ("trans", matrix 3 1 (translation (arr (get "arr_" (get "r_" v))) (arr (get "arr_" (get "d_" v)))))].
Definition p_tangent (v : value) : pval :=
  PRec [("angular", matrix 3 1 (firstn 3 (arr v))); ("linear", matrix 3 1 (skipn 3 (arr v)))].
Definition p_members (v : value) (f : value -> pval) (names : list string) : list (string * pval) := map (fun n => (n, f (get n v))) names.
(** For ephemerides: what Python should show is every declared member. *)
Definition p_arg (a : arg) (v : value) : pval :=
  match a with
  | AScalar _ => p_num v
  | AMat _ r c => matrix r c (arr v)
  | ADyn _ => matrix (length (arr v)) 1 (arr v)
  | AUTC => p_utc v
  | AImu => PRec (("t", p_utc (get "t" v)) :: p_members v p_vec3 ["accel"; "gyro"])
  | AObs => PRec (("t", p_utc (get "t" v)) :: p_members v p_num ["gnss_id"; "sat_num"; "freq"; "pseudorange"; "doppler"; "carrier_phase"])
  | AQuat => p_quat v
  | ADQuat => p_dquat v
  | AJet => PRec [("x", p_dquat (get "x" v)); ("dx", p_tangent (get "dx" v))]
  | ATwoJet => PRec [("x", p_dquat (get "x" v)); ("dx", p_tangent (get "dx" v)); ("d2x", p_tangent (get "d2x" v))]
  | AGps => PRec [("gnss_id", p_num (get "gnssID" v)); ("sat", p_num (get "sat" v)); ("toe", p_utc (get "toe" v))]
  | AGal => PRec [("gnss_id", p_num (get "gnssID" v)); ("sat", p_num (get "sat" v)); ("toe", p_utc (get "toe" v))]
  | AGlo => PRec [("gnss_id", p_num (get "gnssID" v)); ("sat", p_num (get "sat" v)); ("toe", p_utc (get "toe" v))]
  end.
(** One record of a stream: the stamp and the logged values. *)
Definition record_bytes (stamp : value) (args : list (string * arg)) (vals : list value) : list N :=
  ser translation tUTC stamp ++ log_all translation (combine (map (fun na => arg_ty (snd na)) args) vals).
Definition p_record (stamp : value) (args : list (string * arg)) (vals : list value) : pval :=
  PRec (("t", p_utc stamp) :: combine (map fst args) (map (fun av => p_arg (fst av) (snd av)) (combine (map snd args) vals))).
End S.

(** Streams whose layout the Python reader understands: no ephemerides, no
    dynamic objects, no proper matrices, no reserved or repeated names. *)
Definition plain (a : arg) : Prop :=
  match a with
  | AMat _ r c => r = 1 \/ c = 1
  | ADyn _ | AGps | AGal | AGlo => False
  | _ => True
  end.
Definition plain_args (args : list (string * arg)) : Prop :=
  args <> [] /\ Forall (fun na => plain (snd na)) args /\ NoDup (map fst args) /\
  Forall (fun n => ~ In n ["t"; "type"; "rows"; "cols"]) (map fst args).
