(** Property theorems about the satellites of the simulator (C241 - C243). *)
From Coq Require Import ZArith List Bool Arith Lia Sorted.
From Verif Require Import UtcTimeModel UtcTimeSpec SatModel SatSpec LoadModel LoadSpec LoadProofs.
Import ListNotations.
Local Open Scope Z_scope.

(** C241: whatever is done to other objects, a simulator that was made from a log makes
    its observations from the satellites of the log, each once, with everything that
    the log says of them. *)
Theorem c241_once : forall D (ops : list (op D)) w i l, (forall l, In (New l) ops -> Forall well_formed l) -> (forall i l, ~ In (Load i l) ops) ->
  run ops [] = Some w -> nth_error (origins ops) i = Some (i, l) -> ~ In (End i) ops -> exists os, sample w i = Some os /\ all_once l os.
Proof. intros D ops w i l W NL R H E. apply (proj1 (history_sample ops w i i l W NL R H E) E). Qed.
Print Assumptions c241_once.
(** All ephemerides wait to be sent, in the order of the log. *)
Theorem c241_queues : forall D i (l : list (record D)) s, Forall well_formed l -> construct i l = Some s ->
  q_gps s = logged_of GPS l /\ q_glo s = logged_of Glonass l /\ q_gal s = logged_of Galileo l.
Proof. intros D. exact construct_queue. Qed.
Print Assumptions c241_queues.
(** A log without ephemerides, or with one in the stream of another constellation, ends
    the process; any other is loaded. *)
Theorem c241_loads : forall D i (l : list (record D)), Forall well_formed l -> (construct i l = None <-> l = []).
Proof.
  intros D i l F. split; [|intros ->; reflexivity]. intros C. destruct l as [|r l]; [reflexivity|]. destruct (construct_ok i (r :: l) F) as (s & E & _); [discriminate|]. congruence.
Qed.
Print Assumptions c241_loads.
Theorem c241_mismatch : forall D i y t (e : eph D) a b, Forall well_formed a -> gnss e <> number y -> construct i (a ++ (y, (t, e)) :: b) = None.
Proof. intros D. exact mismatch. Qed.
Print Assumptions c241_mismatch.
Definition x_rec (y : system) (n s : Z) (d : nat) : record nat := (y, (mkUtc s 0, mkEph (number y) n (mkUtc (s + 10) 0) d)).
Definition x_log : list (record nat) := [x_rec Galileo 7 0 0; x_rec GPS 9 1 1; x_rec GPS 3 2 2; x_rec Glonass 3 2 3; x_rec GPS 9 (-5) 4; x_rec GPS 9 1 5].
Lemma x_log_ok : Forall well_formed x_log.
Proof. repeat (apply Forall_cons; [split; [reflexivity|unfold normal; cbn; lia]|]). apply Forall_nil. Qed.
Definition x_ops : list (op nat) := [New x_log; Copy 0; New [x_rec GPS 1 0 0]; End 2].
Lemma x_new : forall l, In (New l) x_ops -> Forall well_formed l.
Proof.
  intros l I. cbn in I. destruct I as [I|[I|[I|[I|[]]]]]; try discriminate I; injection I as <-; [exact x_log_ok|].
  apply Forall_cons; [split; [reflexivity|unfold normal; cbn; lia]|apply Forall_nil].
Qed.
Lemma x_loads : forall i l, ~ In (Load i l) x_ops.
Proof. intros i l I. cbn in I. destruct I as [I|[I|[I|[I|[]]]]]; discriminate I. Qed.
Definition x_w : world nat := Eval vm_compute in match run x_ops [] with Some w => w | None => [] end.
Example c241_case : run x_ops [] = Some x_w /\ origins x_ops = [(0%nat, x_log); (0%nat, x_log); (2%nat, [x_rec GPS 1 0 0])] /\
  (exists os, sample x_w 0 = Some os /\ map (fun s => (s_gnss s, s_no s, map data (almanac s))) os = [(0, 3, [2%nat]); (0, 9, [4; 5]%nat); (6, 3, [3%nat]); (2, 7, [0%nat])]) /\
  exists os, sample x_w 0 = Some os /\ all_once x_log os.
Proof.
  split; [vm_compute; reflexivity|]. split; [reflexivity|]. split; [eexists; split; vm_compute; reflexivity|].
  apply (c241_once nat x_ops x_w 0 x_log x_new x_loads); [vm_compute; reflexivity|reflexivity|]. intros I. cbn in I. destruct I as [I|[I|[I|[I|[]]]]]; discriminate I.
Qed.

(** C242, full statement (false of the code): load may be called again, and the
    observations are then those of both logs.  Instead every satellite is there twice,
    without an offset of its phase: the sample reads past the end of the offsets. *)
Theorem c242_again_refuted : exists (l l2 : list (record nat)) w, Forall well_formed l /\ Forall well_formed l2 /\ run [New l; Load 0 l2] [] = Some w /\ sample w 0 = None.
Proof.
  exists x_log, [x_rec GPS 1 0 0]. eexists. split; [exact x_log_ok|]. split; [apply Forall_cons; [split; [reflexivity|unfold normal; cbn; lia]|apply Forall_nil]|].
  split; vm_compute; reflexivity.
Qed.
Print Assumptions c242_again_refuted.
(** Missing for the full statement: the observations.  It is so for all logs; the
    satellites themselves have what both logs say. *)
Theorem c242_again_partial : forall D i (l : list (record D)) s l2 s2, Forall well_formed l -> Forall well_formed l2 -> l <> [] -> construct i l = Some s -> load i l2 s = Some s2 ->
  (forall y n x, lookup n (sats_of y s2) = Some x -> complete (l ++ l2) y n x) /\ forall w, object w i = Some s2 -> sample w i = None.
Proof. intros D. exact load_again. Qed.
Print Assumptions c242_again_partial.
Example c242_case : exists s s2 x, construct 0 x_log = Some s /\ load 0 [x_rec GPS 3 9 6] s = Some s2 /\ lookup 3 (sats_of GPS s2) = Some x /\ map data (almanac x) = [2; 6]%nat.
Proof. do 3 eexists. repeat (split; [vm_compute; reflexivity|]). vm_compute. reflexivity. Qed.


(** C243, full statement (false of the code): a copy of a simulator makes the
    observations that the original makes.  It uses the satellites of the original. *)
Definition x_w1 : world nat := Eval vm_compute in match run [New x_log; Copy 0] [] with Some w => w | None => [] end.
Definition x_w2 : world nat := Eval vm_compute in match run [New x_log; Copy 0; End 0] [] with Some w => w | None => [] end.
Theorem c243_copy_refuted : exists (l : list (record nat)) w w', Forall well_formed l /\ run [New l; Copy 0] [] = Some w /\ run [New l; Copy 0; End 0] [] = Some w' /\
  sample w 1 <> None /\ sample w' 1 = None.
Proof.
  exists x_log, x_w1, x_w2. split; [exact x_log_ok|]. split; [vm_compute; reflexivity|]. split; [vm_compute; reflexivity|]. split; [vm_compute; discriminate|vm_compute; reflexivity].
Qed.
Print Assumptions c243_copy_refuted.
(** Missing for the full statement: copies that outlive the object they are, also
    through other copies, a copy of; using them is undefined. *)
Theorem c243_copy_partial : forall D (ops : list (op D)) w j i l, (forall l, In (New l) ops -> Forall well_formed l) -> (forall i l, ~ In (Load i l) ops) ->
  run ops [] = Some w -> nth_error (origins ops) j = Some (i, l) -> ~ In (End j) ops -> ~ In (End i) ops -> exists os, sample w j = Some os /\ all_once l os.
Proof. intros D ops w j i l W NL R H E. apply (history_sample ops w j i l W NL R H E). Qed.
Print Assumptions c243_copy_partial.
Theorem c243_outlives : forall D (ops : list (op D)) w j i l, (forall l, In (New l) ops -> Forall well_formed l) -> (forall i l, ~ In (Load i l) ops) ->
  run ops [] = Some w -> nth_error (origins ops) j = Some (i, l) -> ~ In (End j) ops -> In (End i) ops -> sample w j = None.
Proof. intros D ops w j i l W NL R H E. apply (history_sample ops w j i l W NL R H E). Qed.
Print Assumptions c243_outlives.
Example c243_case : exists os, sample x_w 1 = Some os /\ all_once x_log os.
Proof.
  apply (c243_copy_partial nat x_ops x_w 1 0 x_log x_new x_loads); [vm_compute; reflexivity|reflexivity| |]; intros I; cbn in I; destruct I as [I|[I|[I|[I|[]]]]]; discriminate I.
Qed.
