(** Model of the states and factors of the graph (core/states, core/factors,
    common/hetero_collection.h) and of the constructor of FactorGraph
    (core/factor_graph.cxx, core/node.h).  A program makes states and factors, writes the
    numbers of states, and puts factors on the lists of states.

    Simplifications: numbers are reals; a state has the numbers that data() points to, as
    one list, [None] until they are set where the class leaves them unset; objects live to
    the end of the program; the bodies of the factors (operator()), which the code only
    declares, are left out.  A statement that does not compile (a state of another class)
    or names an object that is not there gives [None]. *)
From Coq Require Import List Reals Arith Bool.
From Verif Require Import CircularBufferModel.
Import ListNotations.
Local Open Scope R_scope.

(** The classes of states *)
Inductive kind := AntennaPosition | ClockBias | GnssSwitch | ImuBias | Pose | Velocity.
Scheme Equality for kind.
(** core/states/base.h:16-25 *)
Definition state_id (k : kind) : nat :=
  match k with AntennaPosition => 0 | ClockBias => 1 | GnssSwitch => 2 | ImuBias => 3 | Pose => 4 | Velocity => 5 end.
(** core/states/antenna_position.h:13, clock_bias.h:13, gnss_switch.h:12, imu_bias.h:13, pose.h:17, vel.h:13 *)
Definition state_dim (k : kind) : nat :=
  match k with AntennaPosition => 3 | ClockBias => 2 | GnssSwitch => 1 | ImuBias => 6 | Pose => 8 | Velocity => 3 end.
(** The numbers of a new state: a pose is the identity (common/math/dquat.h:69-73), the
    other classes leave theirs unset *)
Definition fresh (k : kind) : option (list R) := match k with Pose => Some [1; 0; 0; 0; 0; 0; 0; 0] | _ => None end.
(** A state: its class, the members ID and DIM that the constructor sets
    (core/states/base.h:27-42,48), its numbers, its list of factors *)
Record state := mkState { class : kind; ID : nat; DIM : nat; data : option (list R); on : list nat }.
Definition new_state (k : kind) : state := mkState k (state_id k) (state_dim k) (fresh k) nil.

(** The classes of factors and the states each takes: core/factors/gnss.h:9-13,
    gnss_switch.h:9, imu.h:9-14, relative_carrier_phase.h:9-16 *)
Inductive sort := Gnss | Switch | Imu | RelativeCarrierPhase.
Definition takes_states (s : sort) : list kind :=
  match s with
  | Gnss => [Pose; Velocity; ClockBias; AntennaPosition]
  | Switch => [GnssSwitch; GnssSwitch]
  | Imu => [Pose; Pose; Velocity; Velocity; ImuBias]
  | RelativeCarrierPhase => [Pose; Pose; AntennaPosition; ClockBias; ClockBias; GnssSwitch; GnssSwitch]
  end.
(** A factor: the references it keeps (common/hetero_collection.h:17-23) *)
Record factor := mkFactor { refs : list nat }.
Definition graph := (list state * list factor)%type.

Inductive stmt :=
| NewState (k : kind)
| SetState (x : nat) (l : list R)          (* writes the numbers at data() *)
| NewFactor (s : sort) (args : list nat)
| PutOn (x f : nat).                       (* state.factors.push_back(&factor) *)

Definition replace (ss : list state) (x : nat) (s : state) : list state := firstn x ss ++ s :: skipn (S x) ss.
Fixpoint fits (ss : list state) (ks : list kind) (args : list nat) : bool :=
  match ks, args with
  | nil, nil => true
  | k :: ks', x :: args' => match nth_error ss x with Some s => kind_beq (class s) k && fits ss ks' args' | None => false end
  | _, _ => false
  end.
Definition exec (g : graph) (c : stmt) : option graph :=
  let '(ss, fs) := g in
  match c with
  | NewState k => Some (ss ++ [new_state k], fs)
  | SetState x l =>
      match nth_error ss x with
      | Some s => if (length l =? DIM s)%nat then Some (replace ss x (mkState (class s) (ID s) (DIM s) (Some l) (on s)), fs) else None
      | None => None
      end
  (* core/factors/gnss.h:21-29 and the like: the references go to the collection; the states are not told *)
  | NewFactor s args => if fits ss (takes_states s) args then Some (ss, fs ++ [mkFactor args]) else None
  | PutOn x f =>
      match nth_error ss x, nth_error fs f with
      | Some s, Some _ => Some (replace ss x (mkState (class s) (ID s) (DIM s) (data s) (on s ++ [f])), fs)
      | _, _ => None
      end
  end.
Fixpoint exec_all (g : graph) (p : list stmt) : option graph :=
  match p with nil => Some g | c :: r => match exec g c with Some g' => exec_all g' r | None => None end end.
Definition run (p : list stmt) : option graph := exec_all (nil, nil) p.

(** base_items() of a factor, each read through State's ID, DIM and data():
    common/hetero_collection.h:25-50, core/states/base.h:37-41 *)
Definition item (ss : list state) (x : nat) : option (nat * nat * option (list R)) :=
  match nth_error ss x with Some s => Some (ID s, DIM s, data s) | None => None end.
Definition base_items (g : graph) (f : nat) : option (list (option (nat * nat * option (list R)))) :=
  match nth_error (snd g) f with Some fa => Some (map (item (fst g)) (refs fa)) | None => None end.
(** base_items() of a state: core/states/base.h:35 *)
Definition factors_of (g : graph) (x : nat) : option (list nat) :=
  match nth_error (fst g) x with Some s => Some (on s) | None => None end.

(** The first node of a FactorGraph.  A member that is not set yet is [None].
    core/node.h:10-20, core/factor_graph.h:21-39 *)
Record node := mkNode { t : option R; T_n2b : option (list R); vel : option (list R); clk : option (list R); sw : list (option R) }.
Record options := mkOptions { t0 : R; x0 : list R; vel0 : list R; clk0 : list R }.
Definition new_node : node := mkNode None (Some [1; 0; 0; 0; 0; 0; 0; 0]) None None (repeat None 30).
(** Changes the object that back() refers to: common/circular_buffer.h:27 *)
Definition at_back (N : nat) (b : cb node) (f : node -> node) : cb node :=
  match back N b with Some n => assign b (it_minus N (tail b) 1) (f n) | None => b end.
(** core/factor_graph.cxx:6-16; 26 is MAX_STATE_LEN + 1, core/factor_graph.h:47,51 *)
Definition new_graph (o : options) : cb node :=
  let b := emplace_back 26 (init 26) new_node in
  let b := at_back 26 b (fun n => mkNode (Some (t0 o)) (T_n2b n) (vel n) (clk n) (sw n)) in
  let b := at_back 26 b (fun n => mkNode (t n) (Some (x0 o)) (vel n) (clk n) (sw n)) in
  let b := at_back 26 b (fun n => mkNode (t n) (T_n2b n) (Some (vel0 o)) (clk n) (sw n)) in
  let b := at_back 26 b (fun n => mkNode (t n) (T_n2b n) (vel n) (Some (clk0 o)) (sw n)) in
  at_back 26 b (fun n => mkNode (t n) (T_n2b n) (vel n) (clk n) (map (fun _ => Some 1) (sw n))).
(** core/factor_graph.h:44 *)
Definition last_node (b : cb node) : option node := back 26 b.
