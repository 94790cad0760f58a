From Coq Require Import ZArith List Bool Arith Lia Sorted.
From Verif Require Import UtcTimeModel SimModel StepModel StepSpec.
Import ListNotations.

Section P.
Context {X T Obs Imu Gps Gal Glo : Type}.
Variable move : T -> X -> option X.
Variable now : X -> utc.
Variable sample_gnss : utc -> X -> option (option Obs * X).
Variable sample_imu : utc -> X -> option (option Imu * X).
Notation payload := (payload Obs Imu Gps Gal Glo).
Notation sim := (@sim X Gps Gal Glo).
Notation op := (op T).
Notation step := (@step X T Obs Imu Gps Gal Glo move now sample_gnss sample_imu).
Notation run := (@run X T Obs Imu Gps Gal Glo move now sample_gnss sample_imu).

Lemma call_heard {A} cb s (mk : A -> payload) o : (forall a, source (mk a) = s) -> call cb s mk o = heard cb (map snd (call everything s mk o)).
Proof. intros H. destruct o as [a|]; [|reflexivity]. cbn [call everything map snd heard flat_map app]. rewrite H. destruct (cb s); reflexivity. Qed.
Lemma heard_app who (a b : list payload) : heard who (a ++ b) = heard who a ++ heard who b.
Proof. unfold heard. apply flat_map_app. Qed.
Lemma step_heard dt cb s : step dt cb s = match step dt everything s with Some (s', c) => Some (s', heard cb (map snd c)) | None => None end.
Proof.
  unfold step. destruct (move dt (world s)) as [x1|]; [|reflexivity]. cbn [bind]. destruct (sample_gnss (now x1) x1) as [a|]; [|reflexivity]. cbn [bind].
  destruct (sample_imu (now (snd a)) (snd a)) as [b|]; [|reflexivity]. cbn [bind]. destruct (sampleEph (now (snd b)) (q_gps s)) as [c|]; [|reflexivity]. cbn [bind].
  destruct (sampleEph (now (snd b)) (q_gal s)) as [d|]; [|reflexivity]. cbn [bind]. destruct (sampleEph (now (snd b)) (q_glo s)) as [e|]; [|reflexivity]. cbn [bind].
  rewrite !map_app, !heard_app, <- !call_heard by reflexivity. reflexivity.
Qed.
Lemma heard_ext f g (ps : list payload) : (forall s, f s = g s) -> heard f ps = heard g ps.
Proof. intros H. unfold heard. apply flat_map_ext. intros p. rewrite H. reflexivity. Qed.
Lemma listener_snoc s (l : list op) o first : listener s (l ++ [o]) first = match o with Register k f => if sensor_eqb k s then f else listener s l first | Step _ => listener s l first end.
Proof.
  revert first. induction l as [|a l IH]; intros first; [destruct o; cbn [app listener]; [destruct (sensor_eqb s0 s)|]; reflexivity|]. destruct a; cbn [app listener]; apply IH.
Qed.
Lemma sensor_eqb_sym a b : sensor_eqb a b = sensor_eqb b a. Proof. destruct a, b; reflexivity. Qed.
Lemma run_heard todo : forall done first cb s, (forall k, cb k = listener k done (first k)) ->
  run todo cb s = match run (steps todo) everything s with Some (s', all) => Some (s', expected done todo (map (map snd) all) first) | None => None end.
Proof.
  induction todo as [|o todo IH]; intros done first cb s H; [reflexivity|]. destruct o as [k f|dt].
  - cbn [run steps filter expected]. apply (IH (done ++ [Register k f]) first (register k f cb)). intros j. rewrite listener_snoc. unfold register. rewrite sensor_eqb_sym, H. reflexivity.
  - cbn [steps filter]. fold (steps todo). cbn [run]. rewrite (step_heard dt cb s). destruct (step dt everything s) as [[s' c]|]; [|reflexivity]. cbn [bind fst snd].
    rewrite (IH (done ++ [Step dt]) first cb s'); [|intros j; rewrite listener_snoc; apply H]. destruct (run (steps todo) everything s') as [[s2 all]|]; [|reflexivity]. cbn [bind fst snd map expected].
    rewrite (heard_ext cb (fun s0 => listener s0 done (first s0))) by exact H. reflexivity.
Qed.
Lemma run_state todo cb s : match run todo cb s with Some (s', _) => Some s' | None => None end = match run (steps todo) none s with Some (s', _) => Some s' | None => None end.
Proof.
  rewrite (run_heard todo [] cb cb s) by reflexivity. rewrite (run_heard (steps todo) [] none none s) by reflexivity.
  assert (steps (steps todo) = steps todo) as ->.
  { clear. induction todo as [|[k f|dt] l IH]; [reflexivity|exact IH|]. unfold steps in *. cbn [filter]. rewrite IH. reflexivity. }
  destruct (run (steps todo) everything s) as [[s' all]|]; reflexivity.
Qed.
Lemma call_rank {A} cb s (mk : A -> payload) o : (forall a, source (mk a) = s) ->
  map (fun x => rank (source (snd x))) (call cb s mk o) = [] \/ map (fun x => rank (source (snd x))) (call cb s mk o) = [rank s].
Proof. intros H. unfold call. destruct o as [a|]; [|left; reflexivity]. destruct (cb s); [right|left; reflexivity]. cbn [map snd]. rewrite H. reflexivity. Qed.
Lemma step_order dt cb s s' c : step dt cb s = Some (s', c) -> StronglySorted Nat.lt (map (fun x => rank (source (snd x))) c).
Proof.
  unfold step. destruct (move dt (world s)) as [x1|]; [|discriminate]. cbn [bind]. destruct (sample_gnss (now x1) x1) as [a|]; [|discriminate]. cbn [bind].
  destruct (sample_imu (now (snd a)) (snd a)) as [b|]; [|discriminate]. cbn [bind]. destruct (sampleEph (now (snd b)) (q_gps s)) as [g|]; [|discriminate]. cbn [bind].
  destruct (sampleEph (now (snd b)) (q_gal s)) as [d|]; [|discriminate]. cbn [bind]. destruct (sampleEph (now (snd b)) (q_glo s)) as [e|]; [|discriminate]. cbn [bind].
  intros E. injection E as _ <-. rewrite !map_app.
  destruct (call_rank cb SGnss PObs (fst a)) as [-> | ->]; [reflexivity| |]; destruct (call_rank cb SImu PImu (fst b)) as [-> | ->]; try reflexivity;
    destruct (call_rank cb SGps PGps (fst g)) as [-> | ->]; try reflexivity; destruct (call_rank cb SGal PGal (fst d)) as [-> | ->]; try reflexivity;
    destruct (call_rank cb SGlo PGlo (fst e)) as [-> | ->]; try reflexivity; cbn [app rank]; repeat (apply SSorted_cons || apply SSorted_nil || apply Forall_cons || apply Forall_nil); unfold Nat.lt; lia.
Qed.
Lemma run_order l : forall cb s s' cs, run l cb s = Some (s', cs) -> Forall (fun c => StronglySorted Nat.lt (map (fun x => rank (source (snd x))) c)) cs.
Proof.
  induction l as [|[k f|dt] l IH]; intros cb s s' cs H; cbn [run] in H; [injection H as _ <-; constructor|exact (IH _ _ _ _ H)|].
  destruct (step dt cb s) as [[s1 c]|] eqn:E; [|discriminate H]. cbn [bind fst snd] in H. destruct (run l cb s1) as [[s2 cs2]|] eqn:R; [|discriminate H]. injection H as _ <-.
  constructor; [exact (step_order _ _ _ _ _ E)|exact (IH _ _ _ _ R)].
Qed.
End P.
