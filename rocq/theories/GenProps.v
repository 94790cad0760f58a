(** Property theorems about generated filters (C187 - C193). *)
From Coq Require Import String List Arith Bool Reals Permutation Lia Lra.
From Flocq Require Import IEEE754.BinarySingleNaN.
From Verif Require Import LinSpec Float64 GenModel GenSpec GenProofs.
Import ListNotations.
Local Open Scope list_scope.
Local Open Scope nat_scope.

(** C187: for every composition of the state, dense() of an error state, of a covariance,
    of a process covariance and of a Jacobian can be generated, has the size of the
    components there are, and holds every component of every block at its place; every
    position is the place of exactly one component. *)
Theorem c187_vector : forall composition cnt e junk, let l := organize_states composition in
  exists v, dense_vector l cnt e junk = Some (whole_extent cnt l, v) /\
    forall k i s, component cnt l k i s -> v (place cnt l k i) = e (name s) i.
Proof. intros composition cnt e junk l. exact (dense_vector_ok l cnt e junk (organized composition)). Qed.
Print Assumptions c187_vector.
Theorem c187_covariance : forall composition cnt b junk, composition <> [] -> let l := organize_states composition in
  exists m, covariance_dense l cnt b junk = Some (whole_extent cnt l, whole_extent cnt l, m) /\
    forall k i r k' j c, component cnt l k i r -> component cnt l k' j c ->
      m (place cnt l k i) (place cnt l k' j) = (if (k <? k') || ((k =? k') && (i <=? j)) then b (name r) (name c) i j else b (name c) (name r) j i) /\
      m (place cnt l k' j) (place cnt l k i) = m (place cnt l k i) (place cnt l k' j).
Proof.
  intros composition cnt b junk NE l.
  assert (NE' : l <> []).
  { unfold l, organize_states. intros E. apply app_eq_nil in E. destruct E as [E1 E2]. destruct composition as [|s t]; [congruence|]. cbn [filter] in E1, E2. destruct (variable s); discriminate. }
  destruct (covariance_dense_ok l cnt b junk NE' (organized composition)) as (m & E & M). exists m. split; [exact E|].
  intros k i r k' j c K K'. split; [exact (M _ _ _ _ _ _ K K')|]. rewrite (M _ _ _ _ _ _ K K'), (M _ _ _ _ _ _ K' K).
  destruct (lt_eq_lt_dec k k') as [[O|O]|O].
  - replace (k <? k') with true by (symmetry; apply Nat.ltb_lt; exact O). replace (k' <? k) with false by (symmetry; apply Nat.ltb_ge; lia). replace (k' =? k) with false by (symmetry; apply Nat.eqb_neq; lia). reflexivity.
  - subst k'. assert (r = c) by (destruct K as [K _], K' as [K' _]; congruence). subst c. rewrite Nat.ltb_irrefl, Nat.eqb_refl. cbn [orb andb].
    destruct (lt_eq_lt_dec i j) as [[Q|Q]|Q].
    + replace (i <=? j) with true by (symmetry; apply Nat.leb_le; lia). replace (j <=? i) with false by (symmetry; apply Nat.leb_gt; lia). reflexivity.
    + subst j. rewrite Nat.leb_refl. reflexivity.
    + replace (i <=? j) with false by (symmetry; apply Nat.leb_gt; lia). replace (j <=? i) with true by (symmetry; apply Nat.leb_le; lia). reflexivity.
  - replace (k' <? k) with true by (symmetry; apply Nat.ltb_lt; exact O). replace (k <? k') with false by (symmetry; apply Nat.ltb_ge; lia). replace (k =? k') with false by (symmetry; apply Nat.eqb_neq; lia). reflexivity.
Qed.
Print Assumptions c187_covariance.
Theorem c187_process : forall composition cnt q junk, composition <> [] -> let l := organize_states composition in
  exists m, process_covariance_dense l cnt q junk = Some (whole_extent cnt l, whole_extent cnt l, m) /\
    forall k i r k' j c, component cnt l k i r -> component cnt l k' j c ->
      m (place cnt l k i) (place cnt l k' j) =
        if (k =? k') && (i =? j) then q (name r) (match bundle r with Some _ => i mod freedom (base r) | None => i end) else 0%R.
Proof.
  intros composition cnt q junk NE l.
  assert (NE' : l <> []).
  { unfold l, organize_states. intros E. apply app_eq_nil in E. destruct E as [E1 E2]. destruct composition as [|s t]; [congruence|]. cbn [filter] in E1, E2. destruct (variable s); discriminate. }
  destruct (process_dense_ok l cnt q junk NE' (organized composition)) as (m & E & M). exists m. split; [exact E|].
  intros k i r k' j c K K'. rewrite (M _ _ _ _ _ _ K K'). unfold variable, base_dx. destruct (bundle r); reflexivity.
Qed.
Print Assumptions c187_process.
Theorem c187_jacobian : forall rows_composition composition deps cnt b junk, rows_composition <> [] ->
  let rl := organize_states rows_composition in let l := organize_states composition in
  exists m, jacobian_dense deps rl l cnt b junk = Some (whole_extent cnt rl, whole_extent cnt l, m) /\
    forall k i r k' j c, component cnt rl k i r -> component cnt l k' j c ->
      (In (name r, name c) deps -> m (place cnt rl k i) (place cnt l k' j) = b (name r) (name c) i j) /\
      (~ In (name r, name c) deps -> m (place cnt rl k i) (place cnt l k' j) = 0%R).
Proof.
  intros rc composition deps cnt b junk NE rl l.
  assert (NE' : rl <> []).
  { unfold rl, organize_states. intros E. apply app_eq_nil in E. destruct E as [E1 E2]. destruct rc as [|s t]; [congruence|]. cbn [filter] in E1, E2. destruct (variable s); discriminate. }
  exact (jacobian_dense_ok deps rl l cnt b junk NE' (organized rc) (organized composition)).
Qed.
Print Assumptions c187_jacobian.
Theorem c187_places : forall cnt l,
  (forall p, p < whole_extent cnt l -> exists k i s, component cnt l k i s /\ place cnt l k i = p) /\
  (forall k i s k' i' s', component cnt l k i s -> component cnt l k' i' s' -> place cnt l k i = place cnt l k' i' -> k = k' /\ i = i') /\
  (forall k i s, component cnt l k i s -> place cnt l k i < whole_extent cnt l).
Proof.
  intros cnt l. split; [exact (place_onto cnt l)|]. split; [|exact (place_in cnt l)].
  intros k i s k' i' s' K K' E.
  destruct (lt_eq_lt_dec k k') as [[O|O]|O]; [pose proof (place_mono cnt l _ _ _ _ _ _ K K' (or_introl O)); lia| |pose proof (place_mono cnt l _ _ _ _ _ _ K' K (or_introl O)); lia].
  split; [exact O|]. destruct (lt_eq_lt_dec i i') as [[Q|Q]|Q]; [pose proof (place_mono cnt l _ _ _ _ _ _ K K' (or_intror (conj O Q))); lia|exact Q|pose proof (place_mono cnt l _ _ _ _ _ _ K' K (or_intror (conj (eq_sym O) Q))); lia].
Qed.
Print Assumptions c187_places.
(** the composition of example_ekf.yaml, as written with a variable member in the middle:
    with 2 quaternions and 3 vectors, component 4 of the second variable member is at
    6 + 3 + 5 + 2*3 + 4; without organize_states the generator would fail *)
Definition x_composition : list member :=
  [Mem "pose" DQuatK None; Mem "variable_quat" QuatK (Some 5); Mem "vec3" (VecK 3) None; Mem "vec5" (VecK 5) None; Mem "variable_vec3" (VecK 3) (Some 5)].
Definition x_counts (c : string) : nat := if String.eqb c "num_variable_quat" then 2 else 3.
Example c187_case : component x_counts (organize_states x_composition) 4 4 (Mem "variable_vec3" (VecK 3) (Some 5)) /\
  place x_counts (organize_states x_composition) 4 4 = 24 /\ whole_extent x_counts (organize_states x_composition) = 29 /\
  covariance_dense x_composition x_counts (fun _ _ _ _ => 0%R) (fun _ _ => 0%R) = None.
Proof. split; [|split; [|split]]; [|reflexivity..]. split; [reflexivity|]. cbn. lia. Qed.

(** C188, full statement (false of the code): fromDense(e.dense(counts)) is e.  fromDense
    takes a vector of the largest size; of a smaller one it does not. *)
Theorem c188_round_trip_refuted : exists composition cnt e junk mem v, let l := organize_states composition in
  NoDup (map name l) /\ (forall s n, In s l -> bundle s = Some n -> cnt (counter_var s) <= n) /\
  dense_vector l cnt e junk = Some v /\ from_dense l mem v = None.
Proof.
  exists x_composition, x_counts, (fun _ _ => 1%R), (fun _ => 0%R), (fun _ _ => 0%R). eexists. split; [|split; [|split; [reflexivity|reflexivity]]].
  - cbn. repeat (apply NoDup_cons; [cbn; intuition discriminate|]). apply NoDup_nil.
  - intros s n I. cbn in I. destruct I as [<-|[<-|[<-|[<-|[<-|[]]]]]]; cbn; intros H; try discriminate; injection H as <-; unfold x_counts; cbn; lia.
Qed.
Print Assumptions c188_round_trip_refuted.
Theorem c188_full_partial : forall composition cnt e junk mem, let l := organize_states composition in
  NoDup (map name composition) -> full cnt l ->
  exists v e', dense_vector l cnt e junk = Some v /\ from_dense l mem v = Some e' /\
    forall s i, In s composition -> i < extent cnt s -> e' (name s) i = e (name s) i.
Proof.
  intros composition cnt e junk mem l D U.
  assert (P : Permutation composition l).
  { unfold l, organize_states. clear. induction composition as [|s t IH]; [reflexivity|]. cbn [filter]. destruct (variable s); cbn [negb app].
    - rewrite <- Permutation_middle. apply perm_skip. exact IH.
    - apply perm_skip. exact IH. }
  destruct (round_trip l cnt e junk mem (organized composition) (Permutation_NoDup (Permutation_map name P) D) U) as (v & e' & E1 & E2 & E3).
  exists v, e'. split; [exact E1|]. split; [exact E2|]. intros s i I L. pose proof (Permutation_in s P I) as I'. apply E3; [exact I'|]. rewrite <- (full_extent cnt l U s I'). exact L.
Qed.
Print Assumptions c188_full_partial.
Example c188_case : NoDup (map name x_composition) /\ full (fun _ => 5) (organize_states x_composition) /\ extent (fun _ => 5) (Mem "variable_vec3" (VecK 3) (Some 5)) = 15.
Proof.
  split; [|split; [|reflexivity]].
  - cbn. repeat (apply NoDup_cons; [cbn; intuition discriminate|]). apply NoDup_nil.
  - intros s n I. cbn in I. destruct I as [<-|[<-|[<-|[<-|[<-|[]]]]]]; cbn; intros H; try discriminate; injection H as <-; reflexivity.
Qed.

(** C189, full statement (false of the code): State::size() is the number of components of
    the error state.  A variable member counts one for every element, however many
    components an element has. *)
Theorem c189_size_refuted : exists composition cnt e, let l := organize_states composition in
  state_size l = Some e /\ index cnt e = 19 /\ whole_extent cnt l = 29.
Proof. exists x_composition, x_counts. eexists. split; [reflexivity|]. split; reflexivity. Qed.
Print Assumptions c189_size_refuted.
Theorem c189_size_partial : forall composition cnt, let l := organize_states composition in
  (forall s, In s composition -> bundle s <> None -> freedom (base s) = 1) ->
  exists e, state_size l = Some e /\ index cnt e = whole_extent cnt l.
Proof.
  intros composition cnt l B. unfold state_size.
  destruct (accumulate_size_ok l (PInt 0) (organized composition) (or_introl (ex_intro _ 0 eq_refl))) as (e & E). exists e. split; [exact E|].
  rewrite (accumulate_size cnt l _ _ E).
  - reflexivity.
  - intros s I. apply B. unfold l, organize_states in I. apply in_app_iff in I. destruct I as [I|I]; apply filter_In in I; exact (proj1 I).
Qed.
Print Assumptions c189_size_partial.
(** as in rtk_ekf.yaml: 30 single differences of one component *)
Example c189_case : let l := organize_states [Mem "sd" (VecK 1) (Some 30); Mem "pose" DQuatK None] in
  (forall s, In s [Mem "sd" (VecK 1) (Some 30); Mem "pose" DQuatK None] -> bundle s <> None -> freedom (base s) = 1) /\ whole_extent (fun _ => 7) l = 13.
Proof. split; [|reflexivity]. intros s [<-|[<-|[]]]; cbn; congruence. Qed.

(** C190, full statement (false of the code): the covariance made from a process covariance
    is the diagonal matrix of its variances.  What lies between two members is not
    written, in any composition of two members or more, and tile writes nothing. *)
Theorem c190_initial_refuted : forall composition cnt q temp junk, let l := organize_states composition in NoDup (map name l) ->
  forall k i r k' j c, component cnt l k i r -> component cnt l k' j c -> k < k' ->
  exists mem d m m', covariance_dense l cnt (covariance_of l q temp mem) junk = Some (d, d, m) /\ process_covariance_dense l cnt q junk = Some (d, d, m') /\
    m (place cnt l k i) (place cnt l k' j) <> m' (place cnt l k i) (place cnt l k' j).
Proof.
  intros composition cnt q temp junk l D k i r k' j c K K' O. exists (fun _ _ _ _ => 1%R).
  assert (NE : l <> []) by (intros E; destruct K as [K _]; rewrite E in K; destruct k; discriminate).
  destruct (covariance_dense_ok l cnt (covariance_of l q temp (fun _ _ _ _ => 1%R)) junk NE (organized composition)) as (m & E & M).
  destruct (process_dense_ok l cnt q junk NE (organized composition)) as (m' & E' & M').
  exists (whole_extent cnt l), m, m'. split; [exact E|]. split; [exact E'|]. rewrite (M _ _ _ _ _ _ K K'), (M' _ _ _ _ _ _ K K').
  replace (k <? k') with true by (symmetry; apply Nat.ltb_lt; exact O). replace (k =? k') with false by (symmetry; apply Nat.eqb_neq; lia). cbn [orb andb].
  rewrite covariance_of_other; [lra|]. intros s I R C. destruct K as [K _], K' as [K' _].
  assert (X : nth_error (map name l) k = nth_error (map name l) k') by (rewrite (map_nth_error name _ _ K), (map_nth_error name _ _ K'); congruence).
  assert (k < length (map name l)) by (rewrite map_length; apply nth_error_Some; congruence). pose proof (proj1 (NoDup_nth_error _) D k k' H X). lia.
Qed.
Print Assumptions c190_initial_refuted.
Theorem c190_tile_refuted : forall a rows cols v h, 0 < rows -> 0 < cols -> 0 < v -> 0 < h -> exists junk, ~ copies rows cols a (tile a v h junk) v h.
Proof.
  intros a rows cols v h R C V H. exists (fun _ _ => (a O O + 1)%R). rewrite tile_junk. intros X. specialize (X 0 0 0 0 V H R C). cbn in X. lra.
Qed.
Print Assumptions c190_tile_refuted.
(** What holds: the block of a fixed member with itself is the diagonal matrix of its
    variances, whatever the memory held.  Missing: everything else. *)
Theorem c190_blocks_partial : forall composition cnt q temp mem junk, let l := organize_states composition in NoDup (map name l) -> l <> [] ->
  exists d m m', covariance_dense l cnt (covariance_of l q temp mem) junk = Some (d, d, m) /\ process_covariance_dense l cnt q junk = Some (d, d, m') /\
    forall k i j r, component cnt l k i r -> component cnt l k j r -> bundle r = None ->
      m (place cnt l k i) (place cnt l k j) = m' (place cnt l k i) (place cnt l k j) /\
      m (place cnt l k i) (place cnt l k j) = if i =? j then q (name r) i else 0%R.
Proof.
  intros composition cnt q temp mem junk l D NE.
  destruct (covariance_dense_ok l cnt (covariance_of l q temp mem) junk NE (organized composition)) as (m & E & M).
  destruct (process_dense_ok l cnt q junk NE (organized composition)) as (m' & E' & M').
  exists (whole_extent cnt l), m, m'. split; [exact E|]. split; [exact E'|]. intros k i j r K K' B.
  assert (X : m (place cnt l k i) (place cnt l k j) = if i =? j then q (name r) i else 0%R).
  { rewrite (M _ _ _ _ _ _ K K'). rewrite Nat.ltb_irrefl, Nat.eqb_refl. cbn [orb andb].
    assert (I : In r l) by (exact (nth_error_In _ _ (proj1 K))).
    assert (L1 : i < base_dx r) by (destruct K as [_ L]; unfold extent in L; rewrite B in L; exact L).
    assert (L2 : j < base_dx r) by (destruct K' as [_ L]; unfold extent in L; rewrite B in L; exact L).
    destruct (i <=? j).
    - exact (covariance_of_fixed l q temp mem r D I B i j L1 L2).
    - rewrite (covariance_of_fixed l q temp mem r D I B j i L2 L1). rewrite Nat.eqb_sym. destruct (i =? j) eqn:Q; [apply Nat.eqb_eq in Q; subst j|]; reflexivity. }
  split; [|exact X]. rewrite X, (M' _ _ _ _ _ _ K K'). rewrite Nat.eqb_refl. cbn [andb]. unfold variable. rewrite B. reflexivity.
Qed.
Print Assumptions c190_blocks_partial.
Example c190_case : NoDup (map name (organize_states x_composition)) /\
  component x_counts (organize_states x_composition) 0 5 (Mem "pose" DQuatK None) /\ component x_counts (organize_states x_composition) 4 8 (Mem "variable_vec3" (VecK 3) (Some 5)) /\
  component x_counts (organize_states x_composition) 2 4 (Mem "vec5" (VecK 5) None).
Proof.
  split; [|repeat split; cbn; lia]. cbn. repeat (apply NoDup_cons; [cbn; intuition discriminate|]). apply NoDup_nil.
Qed.

(** C191, full statement (false of the code): the accessor of a block returns as many rows
    and columns as its members have components.  The parameters of the accessor and the
    arguments of its calls stand in the orders of two Python sets of different strings: a
    block between two variable members gets the counts interchanged whenever the two
    orders differ, and then reaches beyond its buffer. *)
Theorem c191_accessor_refuted : exists order cnt rs cs, is_order order /\
  bundle rs = Some 2 /\ bundle cs = Some 6 /\ cnt (counter_var rs) = 2 /\ cnt (counter_var cs) = 6 /\
  (extent cnt rs, extent cnt cs) = (2, 6) /\ (dx rs, dx cs) = (2, 6) /\ accessed order cnt rs cs = (6, 2).
Proof.
  exists (fun l => if existsb (String.eqb "int num_b") l then rev (nodup string_dec l) else nodup string_dec l), (fun c => if String.eqb c "num_a" then 2 else 6), (Mem "a" (VecK 1) (Some 2)), (Mem "b" (VecK 1) (Some 6)).
  split; [|repeat split; reflexivity].
  intros l. destruct (existsb (String.eqb "int num_b") l); [apply Permutation_sym, Permutation_rev|apply Permutation_refl].
Qed.
Print Assumptions c191_accessor_refuted.
(** What holds: with at most one variable member, or two of the same counter, for every
    order.  Missing: two variable members. *)
Theorem c191_accessor_partial : forall order cnt rs cs, is_order order ->
  bundle rs = None \/ bundle cs = None \/ counter_var rs = counter_var cs -> accessed order cnt rs cs = (extent cnt rs, extent cnt cs).
Proof. exact accessed_ok. Qed.
Print Assumptions c191_accessor_partial.
Example c191_case : is_order (fun l => rev (nodup string_dec l)) /\ accessed (fun l => rev (nodup string_dec l)) (fun _ => 4) (Mem "pose" DQuatK None) (Mem "sd" (VecK 1) (Some 30)) = (6, 4).
Proof. split; [|reflexivity]. intros l. apply Permutation_sym, Permutation_rev. Qed.

(** C192, full statement (false of the code): whether an update is made depends on the
    measurement and the filter alone.  With fewer rows than the largest number, the gate
    and the checks also take in memory that was never written: whatever the
    measurement, some contents of it gate the measurement, and some end the process. *)
Theorem c192_gate_refuted : forall N n max_mahal sinv res, n < N -> exists rest_sinv rest_res, gated N n max_mahal sinv res rest_sinv rest_res = true.
Proof. exact gate_junk. Qed.
Print Assumptions c192_gate_refuted.
Theorem c192_check_refuted : forall written n, n <> 0 -> exists rest, length rest = n /\ update_check written rest = false.
Proof.
  intros written n N. exists (repeat B754_nan n). split; [apply repeat_length|].
  destruct (update_check written (repeat B754_nan n)) eqn:E; [|reflexivity]. unfold update_check in E. rewrite finite_array in E.
  specialize (E B754_nan). exfalso. assert (X : is_nan (B754_nan : b64) = false); [|discriminate]. apply E. apply in_app_iff. right. destruct n as [|n]; [congruence|]. left; reflexivity.
Qed.
Print Assumptions c192_check_refuted.
(** What holds: with the largest number of rows, or if the rest of the residual is zero, the
    gate compares the Mahalanobis distance of the rows there are. *)
Theorem c192_gate_partial : forall N n max_mahal sinv res rest_sinv rest_res, n <= N -> (forall i, n <= i -> i < N -> rest_res i = 0%R) ->
  gated N n max_mahal sinv res rest_sinv rest_res = true <-> (max_mahal < lquad n sinv res)%R.
Proof.
  intros N n mx sinv res rs rr L Z. rewrite (gate_zero N n mx sinv res rs rr L Z). unfold lquad. destruct (Rlt_dec mx (ldot n res (lmv n sinv res))); split; intros; try assumption; try reflexivity; [discriminate|contradiction].
Qed.
Print Assumptions c192_gate_partial.
Theorem c192_check_partial : forall written, update_check written [] = true <-> forall x, In x written -> is_nan x = false.
Proof. intros written. unfold update_check. rewrite app_nil_r. apply finite_array. Qed.
Print Assumptions c192_check_partial.
(** a residual of 1 with variance 1 passes a threshold of 4 *)
Example c192_case : gated 2 1 4 lid (fun _ => 1%R) lid (fun _ => 0%R) = false.
Proof.
  destruct (gated 2 1 4 lid (fun _ => 1%R) lid (fun _ => 0%R)) eqn:E; [|reflexivity]. exfalso. apply c192_gate_partial in E; [|lia|reflexivity].
  unfold lquad, ldot, lmv, lid in E. cbn in E. lra.
Qed.

(** C193, full statement (false of the code): isFinite holds exactly of arrays of finite
    numbers.  An infinity equals itself. *)
Theorem c193_finite_refuted : exists m, is_finite_array m = true /\ exists x, In x m /\ is_finite x = false.
Proof. exists [B754_infinity false]. split; [reflexivity|]. exists (B754_infinity false). split; [left; reflexivity|reflexivity]. Qed.
Print Assumptions c193_finite_refuted.
(** What holds: it holds of arrays of finite numbers and of no array with a NaN.  Missing: it
    does not refuse infinities. *)
Theorem c193_finite_partial : forall m, ((forall x, In x m -> is_finite x = true) -> is_finite_array m = true) /\
  ((exists x, In x m /\ is_nan x = true) -> is_finite_array m = false).
Proof.
  intros m. split.
  - intros H. apply finite_array. intros x I. specialize (H x I). destruct x; cbn in *; congruence.
  - intros (x & I & N). destruct (is_finite_array m) eqn:E; [|reflexivity]. rewrite finite_array in E. specialize (E x I). congruence.
Qed.
Print Assumptions c193_finite_partial.
Example c193_case : (forall x, In x [of_Z 3; of_Z 0] -> is_finite x = true) /\ is_nan (fdiv (of_Z 0) (of_Z 0)) = true.
Proof. split; [|vm_compute; reflexivity]. intros x [<-|[<-|[]]]; vm_compute; reflexivity. Qed.
