(** Properties C218 to C220: states, factors and the first node of the graph. *)
From Coq Require Import List Reals Arith Bool.
From Verif Require Import CircularBufferModel GraphModel GraphSpec GraphProofs.
Import ListNotations.
Local Open Scope R_scope.

(** C218.  Every factor shows the states it was made with, in the order given, with the
    numbers last written to them, however many states and factors were made and written
    before and after *)
Theorem c218_items : forall (p : list stmt) (g : graph) (f : nat) (s : sort) (a : list nat),
  run p = Some g -> nth_error (factors_made p) f = Some (s, a) ->
  exists es, base_items g f = Some es /\ Forall2 (shows p) a es.
Proof. exact items_right. Qed.
Print Assumptions c218_items.
(** ... and the number that tells the class does tell it *)
Theorem c218_ids : forall j k : kind, state_id j = state_id k -> j = k.
Proof. exact ids_differ. Qed.
Print Assumptions c218_ids.
(** ... and the states of a factor are of the classes that it is about *)
Theorem c218_classes : forall (p : list stmt) (g : graph) (f : nat) (s : sort) (a : list nat),
  run p = Some g -> nth_error (factors_made p) f = Some (s, a) -> map (nth_error (states_made p)) a = map Some (about s).
Proof. intros p g f s a E. exact (classes_run p g E f s a). Qed.
Print Assumptions c218_classes.
Example c218_case : exists g,
  run [NewState GnssSwitch; NewState GnssSwitch; NewFactor Switch [1; 0]%nat; SetState 0 [2]; SetState 1 [3]; SetState 0 [4]] = Some g /\
  base_items g 0 = Some [Some (2%nat, 1%nat, Some [3]); Some (2%nat, 1%nat, Some [4])].
Proof. eexists. split; reflexivity. Qed.

(** C219.  Full statement: the list of factors of a state holds the factors that were made
    with it.  Proved: nothing else puts a factor there than the caller; refuted: making a
    factor does not. *)
Theorem c219_lists_partial : forall (p : list stmt) (g : graph) (x f : nat) (l : list nat),
  run p = Some g -> factors_of g x = Some l -> In f l -> In (PutOn x f) p.
Proof. intros p g x f l E H. exact (lists_run p g E x l H f). Qed.
Print Assumptions c219_lists_partial.
Example c219_case : exists g, run [NewState GnssSwitch; NewState GnssSwitch; NewFactor Switch [1; 0]%nat; PutOn 1 0] = Some g /\ factors_of g 1 = Some [0%nat].
Proof. eexists. split; reflexivity. Qed.
Theorem c219_lists_refuted : exists (p : list stmt) (g : graph) (x f : nat),
  run p = Some g /\ connected p x f /\ factors_of g x = Some [].
Proof.
  exists [NewState GnssSwitch; NewState GnssSwitch; NewFactor Switch [0; 1]%nat]. eexists. exists 0%nat, 0%nat.
  split; [reflexivity|]. split; [|reflexivity]. exists Switch, [0; 1]%nat. split; [reflexivity|left; reflexivity].
Qed.
Print Assumptions c219_lists_refuted.

(** C220.  A new FactorGraph has one node, with the time, pose, velocity and clock of the
    options and all thirty switches on *)
Theorem c220_first : forall o : options,
  last_node (new_graph o) = Some (mkNode (Some (t0 o)) (Some (x0 o)) (Some (vel0 o)) (Some (clk0 o)) (repeat (Some 1) 30)) /\
  contents 26 (new_graph o) = [last_node (new_graph o)].
Proof. intros o. split; [apply first_node|apply one_node]. Qed.
Print Assumptions c220_first.
