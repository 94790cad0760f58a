(** Model of the program that generates the filters (core/ekf/ekf_gen/ekf_gen.py,
    ekf_gen_state.py and ekf_gen_utils.py) and of the C++ it writes: dense vectors and
    matrices, accessors of blocks, the initial covariance, and the checks and the gate of an
    update.  The text of an index is modelled by its terms, the generated assignments by
    their effect on the memory assigned to; memory that nothing has written holds whatever
    it held ([junk]).  Numbers are exact, except in [is_finite_array], which is over
    doubles.  Not modelled: names of members in camel case (taken as given and distinct),
    the generated tests, formatting. *)
From Coq Require Import String List Arith Bool Reals Permutation.
From Flocq Require Import IEEE754.BinarySingleNaN.
From Verif Require Import LinSpec Float64.
Import ListNotations.
Local Open Scope list_scope.

(** ekf_gen_utils.py:69-82 (error_state_size) *)
Inductive kind := DQuatK | QuatK | SO3K | SE3K | VecK (n : nat).
Definition error_state_size (k : kind) : nat := match k with DQuatK => 6 | QuatK => 3 | SO3K => 3 | SE3K => 6 | VecK n => n end.

(** ekf_gen_utils.py:132-164 (State): [bundle] is the size in Var<kind, size>.  Names are
    in snake case, so that make_snake leaves them alone. *)
Record member := Mem { name : string; base : kind; bundle : option nat }.
Definition variable (s : member) : bool := match bundle s with Some _ => true | None => false end.
Definition base_dx (s : member) : nat := error_state_size (base s).
Definition dx (s : member) : nat := match bundle s with Some n => n * base_dx s | None => base_dx s end.
Definition counter_var (s : member) : string := append "num_" (name s).

(** ekf_gen.py:623-628 (organize_states) *)
Definition organize_states (l : list member) : list member := filter (fun s => negb (variable s)) l ++ filter variable l.

(** An index as the generator holds it: a Python integer, or text, modelled by the terms it
    adds up. *)
Inductive term := Lit (n : nat) | Times (counter : string) (k : nat) | Counter (counter : string).
Inductive pyval := PInt (n : nat) | PStr (terms : list term).
Definition text (e : pyval) : list term := match e with PInt n => [Lit n] | PStr l => l end.
(** ekf_gen_utils.py:4-8 (accumulate_expr); None: TypeError, an integer added to text *)
Definition accumulate_expr (expr dim : pyval) : option pyval :=
  match dim with
  | PStr d => Some (PStr (text expr ++ d))
  | PInt n => match expr with PInt k => Some (PInt (k + n)) | PStr _ => None end
  end.
(** the value of the text as a C++ expression, when the counters have the values [cnt] *)
Definition term_value (cnt : string -> nat) (t : term) : nat :=
  match t with Lit n => n | Times c k => cnt c * k | Counter c => cnt c end.
Definition index (cnt : string -> nat) (e : pyval) : nat :=
  match e with PInt n => n | PStr l => list_sum (map (term_value cnt) l) end.

(** ekf_gen_state.py:717-721 (dim in make_dense_matrix) and ekf_gen.py:180-184 *)
Definition dim (s : member) : pyval := if variable s then PStr [Times (counter_var s) (base_dx s)] else PInt (dx s).
(** ekf_gen_state.py:97-103 (state_size, the text of State::size()) *)
Definition size_dim (s : member) : pyval := if variable s then PStr [Counter (counter_var s)] else PInt (dx s).
Fixpoint accumulate (d : member -> pyval) (l : list member) (accum : pyval) : option pyval :=
  match l with [] => Some accum | s :: t => match accumulate_expr accum (d s) with None => None | Some a => accumulate d t a end end.
Definition state_size (l : list member) : option pyval := accumulate size_dim l (PInt 0).

(** ** Dense vectors *)
(** ekf_gen_state.py:667-690 (make_dense_vector): one assignment
    out.segment(offset, dim) = member for every member, the fixed ones first. *)
Fixpoint segments (l : list member) (accum : pyval) : option (list (pyval * member) * pyval) :=
  match l with
  | [] => Some ([], accum)
  | s :: t =>
      match accumulate_expr accum (dim s) with
      | None => None
      | Some a => match segments t a with None => None | Some (r, e) => Some ((accum, s) :: r, e) end
      end
  end.
Definition dense_vector_code (states : list member) : option (list (pyval * member) * pyval) :=
  segments (filter (fun s => negb (variable s)) states ++ filter variable states) (PInt 0).
(** An error state: the buffer of each member, of dx components. *)
Definition error_state := string -> lvec.
Definition assign_segment (cnt : string -> nat) (e : error_state) (out : lvec) (a : pyval * member) : lvec :=
  let o := index cnt (fst a) in
  fun p => if (o <=? p) && (p <? o + index cnt (dim (snd a))) then e (name (snd a)) (p - o) else out p.
(** dense(counts): the size and the components *)
Definition dense_vector (states : list member) (cnt : string -> nat) (e : error_state) (junk : lvec) : option (nat * lvec) :=
  match dense_vector_code states with
  | None => None
  | Some (l, total) => Some (index cnt total, fold_left (assign_segment cnt e) l junk)
  end.
(** ekf_gen_state.py:693-700 (from_dense) in ErrorState::fromDense, which takes a vector of
    DOF components; None: a vector of another size.  [junk]: the new error state *)
Definition dof (states : list member) : nat := list_sum (map dx states).
Fixpoint from_dense_at (states : list member) (accum : nat) (x : lvec) (out : error_state) : error_state :=
  match states with
  | [] => out
  | s :: t => from_dense_at t (accum + dx s) x (fun n => if String.eqb n (name s) then (fun i => if i <? dx s then x (accum + i) else out n i) else out n)
  end.
Definition from_dense (states : list member) (junk : error_state) (v : nat * lvec) : option error_state :=
  if fst v =? dof states then Some (from_dense_at states 0 (snd v) junk) else None.

(** ** Dense matrices *)
(** What is assigned to a block: the block of this name, the diagonal matrix of the vector
    of this name (repeated for every element of a variable member), or zero. *)
Inductive source := Block (r c : string) | Diagonal (s : member) | Zeros.
Record statement := Assign { row_at : pyval; col_at : pyval; of_rows : member; of_cols : member; from : source }.
(** ekf_gen_state.py:741-751 and ekf_gen.py:194-215: the two loops over the members; [what]
    says what is assigned to a block, None: nothing. *)
Fixpoint columns (what : nat -> member -> nat -> member -> option source) (r : nat) (rs : member) (rowe : pyval)
  (cols : list member) (c : nat) (cole : pyval) : option (list statement * pyval) :=
  match cols with
  | [] => Some ([], cole)
  | cs :: t =>
      match accumulate_expr cole (dim cs) with
      | None => None
      | Some cole' =>
          match columns what r rs rowe t (S c) cole' with
          | None => None
          | Some (l, e) => Some (match what r rs c cs with Some w => [Assign rowe cole rs cs w] | None => [] end ++ l, e)
          end
      end
  end.
Fixpoint rows (what : nat -> member -> nat -> member -> option source) (cols : list member) (rws : list member)
  (r : nat) (rowe cole : pyval) : option (list statement * pyval * pyval) :=
  match rws with
  | [] => Some ([], rowe, cole)
  | rs :: t =>
      match columns what r rs rowe cols 0 (PInt 0) with
      | None => None
      | Some (l, cole') =>
          match accumulate_expr rowe (dim rs) with
          | None => None
          | Some rowe' =>
              match rows what cols t (S r) rowe' cole' with
              | None => None
              | Some (l', re, ce) => Some (l ++ l', re, ce)
              end
          end
      end
  end.
(** ekf_gen_state.py:703-756 (make_dense_matrix) with symmetric=True (Covariance) and with
    diagonal=True (ProcessCovariance, InputCovariance) *)
Definition upper (r : nat) (rs : member) (c : nat) (cs : member) : option source :=
  if c <? r then None else Some (Block (name rs) (name cs)).
Definition only_diagonal (r : nat) (rs : member) (c : nat) (cs : member) : option source :=
  Some (if c =? r then Diagonal rs else Zeros).
(** ekf_gen.py:163-218 (make_jacobian_dense_impl): [m] the pairs of names of the blocks
    that the configuration lists *)
Definition listed (m : list (string * string)) (rs cs : member) : bool :=
  existsb (fun p => String.eqb (fst p) (name rs) && String.eqb (snd p) (name cs)) m.
Definition jacobian (m : list (string * string)) (r : nat) (rs : member) (c : nat) (cs : member) : option source :=
  Some (if listed m rs cs then Block (name rs) (name cs) else Zeros).

(** The buffers of a matrix: its blocks by name, and its vectors by name. *)
Definition blocks := string -> string -> lmat.
Definition source_value (b : blocks) (d : string -> lvec) (w : source) : lmat :=
  match w with
  | Block r c => b r c
  | Diagonal s => fun i j => if i =? j then d (name s) (if variable s then i mod base_dx s else i) else 0%R
  | Zeros => fun _ _ => 0%R
  end.
Definition execute (cnt : string -> nat) (b : blocks) (d : string -> lvec) (out : lmat) (a : statement) : lmat :=
  let ro := index cnt (row_at a) in let co := index cnt (col_at a) in
  fun p q => if (ro <=? p) && (p <? ro + index cnt (dim (of_rows a))) && ((co <=? q) && (q <? co + index cnt (dim (of_cols a))))
    then source_value b d (from a) (p - ro) (q - co) else out p q.
(** out.triangularView<Eigen::Lower>() = out.transpose() *)
Definition lower_from_upper (m : lmat) : lmat := fun p q => if q <? p then m q p else m p q.
Definition dense_matrix (what : nat -> member -> nat -> member -> option source) (symmetric : bool) (rws cols : list member)
  (cnt : string -> nat) (b : blocks) (d : string -> lvec) (junk : lmat) : option (nat * nat * lmat) :=
  match rows what cols rws 0 (PInt 0) (PInt 0) with
  | None => None
  | Some (l, re, ce) =>
      let m := fold_left (execute cnt b d) l junk in
      Some (index cnt re, index cnt ce, if symmetric then lower_from_upper m else m)
  end.
Definition covariance_dense (states : list member) cnt b junk := dense_matrix upper true states states cnt b (fun _ _ => 0%R) junk.
Definition process_covariance_dense (states : list member) cnt d junk := dense_matrix only_diagonal false states states cnt (fun _ _ _ _ => 0%R) d junk.
Definition jacobian_dense m (rws cols : list member) cnt b junk := dense_matrix (jacobian m) false rws cols cnt b (fun _ _ => 0%R) junk.

(** ** The initial covariance *)
(** common/matrix_defs.h:128-139 (tile): the statement in the loops names a block of the
    result and does nothing with it. *)
Definition tile_body (a : lmat) (i j : nat) (out : lmat) : lmat := out.
Definition tile (a : lmat) (vcopies hcopies : nat) (junk : lmat) : lmat :=
  fold_left (fun out i => fold_left (fun out j => tile_body a i j out) (seq 0 hcopies) out) (seq 0 vcopies) junk.
(** ekf_gen_templates.py:364-367 and ekf_gen_state.py:777-790
    (Covariance::Covariance(const ProcessCovariance&)): [q] the vectors of the process
    covariance, [mem] the memory of the new object, [temp] that of the results of tile *)
Definition as_diagonal (v : lvec) : lmat := fun i j => if i =? j then v i else 0%R.
Definition set_block (b : blocks) (r c : string) (rows cols : nat) (m : lmat) : blocks :=
  fun r' c' => if String.eqb r' r && String.eqb c' c then (fun i j => if (i <? rows) && (j <? cols) then m i j else b r' c' i j) else b r' c'.
Definition covariance_of (states : list member) (q : string -> lvec) (temp : string -> lmat) (mem : blocks) : blocks :=
  fold_left (fun b s =>
    set_block b (name s) (name s) (dx s) (dx s)
      match bundle s with
      | Some n => tile (as_diagonal (q (name s))) n n (temp (name s))
      | None => as_diagonal (q (name s))
      end) states mem.

(** ** Accessors *)
(** The arguments of an accessor are the elements of a Python set: in the order in which the
    set gives them, which depends on the strings (and on the run of the program), not on
    the order in which they were added.  [order l] is that order for the set of the strings [l]. *)
Definition set_order := list string -> list string.
Definition is_order (order : set_order) : Prop := forall l, Permutation (order l) (nodup string_dec l).
(** ekf_gen.py:92-104, ekf_gen_state.py:152-158: the parameters "int counter" of the
    accessor of a block; ekf_gen.py:199-206, ekf_gen_state.py:723-739,
    ekf_gen_matrix_manip.py:50-58, 84-90, 341-350: the arguments of the calls *)
Definition counters (rs cs : member) : list string := map counter_var (filter variable [rs; cs]).
Definition parameters (order : set_order) (rs cs : member) : list string := order (map (append "int ") (counters rs cs)).
Definition arguments (order : set_order) (rs cs : member) : list string := order (counters rs cs).
(** the value that the parameter [c] has in the accessor: C++ binds by position *)
Fixpoint bound (params args : list string) (cnt : string -> nat) (c : string) : nat :=
  match params, args with
  | p :: ps, a :: r => if String.eqb p (append "int " c) then cnt a else bound ps r cnt c
  | _, _ => 0
  end.
(** the block that a call of the accessor returns: its rows and columns
    (buffer.block(0, 0, rows, cols)) *)
Definition accessed (order : set_order) (cnt : string -> nat) (rs cs : member) : nat * nat :=
  let b := bound (parameters order rs cs) (arguments order rs cs) cnt in
  (index b (dim rs), index b (dim cs)).

(** ** Checks and gate of an update *)
(** common/matrix_defs.h:147-151 (isFinite): all of (m.array() == m.array()) *)
Definition feq (x y : b64) : bool := Beqb x y.
Definition is_finite_array (m : list b64) : bool := forallb (fun x => feq x x) m.
(** ekf_gen_templates.py:583-589 and ekf_gen.py:114-127 (isFinite of a Jacobian): what is
    checked of a measurement of a variable number of rows.  Residual and Jacobian are
    objects of the largest size, of which h writes the rows that there are
    (rtk_ekf_impl.cxx:121, 210: declared without a value); [written] those, [rest] the
    others.  true: the update goes on, false: check ends the process *)
Definition update_check (written rest : list b64) : bool := is_finite_array (written ++ rest).
(** ekf_gen_templates.py:690-697 and ekf_gen_matrix_manip.py:398-406: Sinv has the largest
    size [N], of which the [n] rows and columns in use are written; the product is that of
    the whole objects.  true: gated *)
Definition whole_vector (n : nat) (x rest : lvec) : lvec := fun i => if i <? n then x i else rest i.
Definition whole_matrix (n : nat) (m rest : lmat) : lmat := fun i j => if (i <? n) && (j <? n) then m i j else rest i j.
Definition gated (N n : nat) (max_mahal : R) (sinv : lmat) (res : lvec) (rest_sinv : lmat) (rest_res : lvec) : bool :=
  let r := whole_vector n res rest_res in
  if Rlt_dec max_mahal (ldot N r (lmv N (whole_matrix n sinv rest_sinv) r)) then true else false.
