(** Proofs about generated filters. *)
From Coq Require Import String List Arith Bool ZArith Reals Permutation Lia Lra.
From Flocq Require Import IEEE754.BinarySingleNaN.
From Verif Require Import LinSpec LinProofs Float64 GenModel GenSpec.
Import ListNotations.
Local Open Scope list_scope.
Local Open Scope nat_scope.

(** ** Indices *)
Lemma list_sum_app l m : list_sum (l ++ m) = list_sum l + list_sum m.
Proof. induction l as [|x l IH]; cbn [list_sum fold_right app]; [reflexivity|]. change (x + list_sum (l ++ m) = x + list_sum l + list_sum m). lia. Qed.
Lemma index_text cnt e : list_sum (map (term_value cnt) (text e)) = index cnt e.
Proof. destruct e; cbn; [lia|reflexivity]. Qed.
Lemma freedom_is k : freedom k = error_state_size k.
Proof. destruct k; reflexivity. Qed.
Lemma index_dim cnt s : index cnt (dim s) = extent cnt s.
Proof. unfold dim, extent, variable, dx, base_dx. change freedom with error_state_size. destruct (bundle s); cbn; lia. Qed.
Lemma accumulate_value cnt e d e' : accumulate_expr e d = Some e' -> index cnt e' = index cnt e + index cnt d.
Proof.
  destruct d as [n|l]; cbn [accumulate_expr].
  - destruct e as [k|?]; [|discriminate]. intros H. injection H as <-. reflexivity.
  - intros H. injection H as <-. cbn [index]. rewrite map_app, list_sum_app, index_text. reflexivity.
Qed.
Definition can_go_on (e : pyval) (l : list member) : Prop := (exists n, e = PInt n) \/ forall s, In s l -> bundle s <> None.
Lemma accumulate_dim e s l : fixed_first (s :: l) -> can_go_on e (s :: l) -> exists e', accumulate_expr e (dim s) = Some e' /\ can_go_on e' l.
Proof.
  intros (a & b & E & A & B) G. unfold dim, variable. destruct (bundle s) as [n|] eqn:K.
  - eexists. split; [reflexivity|]. right. intros t I.
    destruct a as [|x a].
    + cbn in E. subst b. apply B. right; exact I.
    + cbn in E. injection E as -> ->. specialize (A x (or_introl eq_refl)). congruence.
  - destruct G as [(n & ->)|G].
    + eexists. split; [reflexivity|]. left. eexists. reflexivity.
    + exfalso. exact (G s (or_introl eq_refl) K).
Qed.
Lemma fixed_first_tail s l : fixed_first (s :: l) -> fixed_first l.
Proof.
  intros (a & b & E & A & B). destruct a as [|x a].
  - exists [], l. cbn in E. subst b. repeat split; [intros ? []|]. intros t I. apply B. right; exact I.
  - cbn in E. injection E as -> ->. exists a, b. repeat split; [|exact B]. intros t I. apply A. right; exact I.
Qed.
Lemma organized l : fixed_first (organize_states l).
Proof.
  exists (filter (fun s => negb (variable s)) l), (filter variable l). split; [reflexivity|]. split; intros s I; apply filter_In in I; destruct I as [_ I]; unfold variable in I; destruct (bundle s); cbn in I; congruence.
Qed.
Lemma organize_same l : fixed_first l -> organize_states l = l.
Proof.
  intros (a & b & -> & A & B). unfold organize_states. rewrite 2 filter_app.
  assert (F1 : filter (fun s => negb (variable s)) a = a).
  { clear - A. induction a as [|x a IH]; [reflexivity|]. cbn [filter]. unfold variable at 1. rewrite (A x (or_introl eq_refl)). cbn [negb]. rewrite IH; [reflexivity|]. intros s I. apply A. right; exact I. }
  assert (F2 : filter variable a = []).
  { clear - A. induction a as [|x a IH]; [reflexivity|]. cbn [filter]. unfold variable at 1. rewrite (A x (or_introl eq_refl)). apply IH. intros s I. apply A. right; exact I. }
  assert (F3 : filter (fun s => negb (variable s)) b = []).
  { clear - B. induction b as [|x b IH]; [reflexivity|]. cbn [filter]. unfold variable at 1. specialize (B x (or_introl eq_refl)) as X. destruct (bundle x); [|congruence]. cbn [negb]. apply IH. intros s I. apply B. right; exact I. }
  assert (F4 : filter variable b = b).
  { clear - B. induction b as [|x b IH]; [reflexivity|]. cbn [filter]. unfold variable at 1. specialize (B x (or_introl eq_refl)) as X. destruct (bundle x); [|congruence]. rewrite IH; [reflexivity|]. intros s I. apply B. right; exact I. }
  rewrite F1, F2, F3, F4, app_nil_r. reflexivity.
Qed.
Lemma place_0 cnt s l i : place cnt (s :: l) 0 i = i. Proof. reflexivity. Qed.
Lemma place_S cnt s l r i : place cnt (s :: l) (S r) i = extent cnt s + place cnt l r i.
Proof. unfold place. cbn [firstn map list_sum fold_right]. change (fold_right Init.Nat.add 0 (map (extent cnt) (firstn r l))) with (list_sum (map (extent cnt) (firstn r l))). lia. Qed.
Lemma whole_cons cnt s l : whole_extent cnt (s :: l) = extent cnt s + whole_extent cnt l.
Proof. reflexivity. Qed.

(** ** Vectors *)
Lemma segments_ok l : forall e, fixed_first l -> can_go_on e l -> exists r e', segments l e = Some (r, e').
Proof.
  induction l as [|s l IH]; intros e F G; cbn [segments]; [eexists; eexists; reflexivity|].
  destruct (accumulate_dim e s l F G) as (e' & -> & G'). destruct (IH e' (fixed_first_tail _ _ F) G') as (r & e'' & ->).
  eexists; eexists; reflexivity.
Qed.
Lemma segments_total cnt l : forall e r e', segments l e = Some (r, e') -> index cnt e' = index cnt e + whole_extent cnt l.
Proof.
  induction l as [|s l IH]; intros e r e'; cbn [segments].
  - intros H. injection H as _ <-. unfold whole_extent. cbn. lia.
  - destruct (accumulate_expr e (dim s)) as [a|] eqn:A; [|discriminate]. destruct (segments l a) as [[r' x]|] eqn:S; [|discriminate].
    intros H. injection H as _ <-. rewrite (IH _ _ _ S), (accumulate_value _ _ _ _ A), index_dim, whole_cons. lia.
Qed.
Lemma segments_before cnt es l : forall e r e' out p, segments l e = Some (r, e') -> p < index cnt e -> fold_left (assign_segment cnt es) r out p = out p.
Proof.
  induction l as [|s l IH]; intros e r e' out p; cbn [segments].
  - intros H _. injection H as <- _. reflexivity.
  - destruct (accumulate_expr e (dim s)) as [a|] eqn:A; [|discriminate]. destruct (segments l a) as [[r' x]|] eqn:S; [|discriminate].
    intros H L. injection H as <- _. cbn [fold_left]. rewrite (IH _ _ _ _ _ S) by (rewrite (accumulate_value _ _ _ _ A); lia).
    unfold assign_segment. cbn [fst snd]. destruct (index cnt e <=? p) eqn:B; [apply Nat.leb_le in B; lia|reflexivity].
Qed.
Lemma segments_at cnt es l : forall e r e' out k i s, segments l e = Some (r, e') -> component cnt l k i s ->
  fold_left (assign_segment cnt es) r out (index cnt e + place cnt l k i) = es (name s) i.
Proof.
  induction l as [|s0 l IH]; intros e r e' out k i s; cbn [segments].
  - intros _ [H _]. destruct k; discriminate.
  - destruct (accumulate_expr e (dim s0)) as [a|] eqn:A; [|discriminate]. destruct (segments l a) as [[r' x]|] eqn:S; [|discriminate].
    intros H [N L]. injection H as <- _. cbn [fold_left]. destruct k as [|k].
    + cbn in N. injection N as ->. rewrite place_0. rewrite (segments_before _ _ _ _ _ _ _ _ S) by (rewrite (accumulate_value _ _ _ _ A), index_dim; lia).
      unfold assign_segment. cbn [fst snd]. rewrite index_dim.
      replace (index cnt e <=? index cnt e + i) with true by (symmetry; apply Nat.leb_le; lia).
      replace (index cnt e + i <? index cnt e + extent cnt s) with true by (symmetry; apply Nat.ltb_lt; lia).
      cbn [andb]. f_equal. lia.
    + rewrite place_S. cbn in N. replace (index cnt e + (extent cnt s0 + place cnt l k i)) with (index cnt a + place cnt l k i)
        by (rewrite (accumulate_value _ _ _ _ A), index_dim; lia).
      apply (IH _ _ _ _ _ _ _ S). split; assumption.
Qed.
Lemma dense_vector_ok l cnt e junk : fixed_first l -> exists v, dense_vector l cnt e junk = Some (whole_extent cnt l, v) /\
  forall k i s, component cnt l k i s -> v (place cnt l k i) = e (name s) i.
Proof.
  intros F. unfold dense_vector, dense_vector_code. change (filter (fun s => negb (variable s)) l ++ filter variable l) with (organize_states l).
  rewrite (organize_same l F).
  destruct (segments_ok l (PInt 0) F (or_introl (ex_intro _ 0 eq_refl))) as (r & e' & S). rewrite S.
  eexists. rewrite (segments_total cnt _ _ _ _ S). split; [reflexivity|].
  intros k i s C. exact (segments_at cnt e l _ _ _ junk k i s S C).
Qed.

(** ** fromDense *)
Lemma from_dense_other l : forall a x out n, (forall s, In s l -> name s <> n) -> from_dense_at l a x out n = out n.
Proof.
  induction l as [|s l IH]; intros a x out n D; [reflexivity|]. cbn [from_dense_at]. rewrite IH.
  - destruct (String.eqb n (name s)) eqn:E; [|reflexivity]. apply String.eqb_eq in E. exfalso. exact (D s (or_introl eq_refl) (eq_sym E)).
  - intros t I. apply D. right; exact I.
Qed.
Lemma full_extent cnt l : full cnt l -> forall s, In s l -> extent cnt s = dx s.
Proof. intros F s I. unfold extent, dx, base_dx. change freedom with error_state_size. destruct (bundle s) as [n|] eqn:B; [|reflexivity]. rewrite (F s n I B). reflexivity. Qed.
Lemma full_whole cnt l : full cnt l -> whole_extent cnt l = dof l.
Proof.
  intros F. pose proof (full_extent cnt l F) as X. clear F. unfold whole_extent, dof. f_equal. apply map_ext_in. exact X.
Qed.
Lemma from_dense_read l : forall cnt a x out k i s, NoDup (map name l) -> (forall s, In s l -> extent cnt s = dx s) -> component cnt l k i s ->
  from_dense_at l a x out (name s) i = x (a + place cnt l k i).
Proof.
  induction l as [|s0 l IH]; intros cnt a x out k i s D F [N L]; [destruct k; discriminate|].
  cbn [map] in D. apply NoDup_cons_iff in D. destruct D as [D0 D]. cbn [from_dense_at]. destruct k as [|k].
  - cbn in N. injection N as ->. rewrite from_dense_other.
    + rewrite String.eqb_refl. rewrite <- (F s (or_introl eq_refl)). replace (i <? extent cnt s) with true by (symmetry; apply Nat.ltb_lt; exact L).
      rewrite place_0. reflexivity.
    + intros t I E. apply D0. rewrite <- E. apply in_map. exact I.
  - cbn in N. rewrite (IH cnt _ x _ k i s D); [|intros t I; apply F; right; exact I|split; assumption].
    rewrite place_S, <- (F s0 (or_introl eq_refl)). f_equal. lia.
Qed.
Lemma component_of cnt l s i : In s l -> i < extent cnt s -> exists k, component cnt l k i s.
Proof. intros I L. apply In_nth_error in I. destruct I as [k N]. exists k. split; assumption. Qed.
Lemma round_trip l cnt e junk mem : fixed_first l -> NoDup (map name l) -> full cnt l ->
  exists v e', dense_vector l cnt e junk = Some v /\ from_dense l mem v = Some e' /\
    forall s i, In s l -> i < dx s -> e' (name s) i = e (name s) i.
Proof.
  intros F D U. destruct (dense_vector_ok l cnt e junk F) as (v & E & V). exists (whole_extent cnt l, v).
  unfold from_dense. cbn [fst snd]. rewrite (full_whole cnt l U), Nat.eqb_refl. eexists. rewrite <- (full_whole cnt l U). split; [exact E|]. split; [reflexivity|].
  intros s i I L. rewrite <- (full_extent cnt l U s I) in L. destruct (component_of cnt l s i I L) as [k C].
  rewrite (from_dense_read l cnt 0 v mem k i s D (full_extent cnt l U) C). cbn [Nat.add]. exact (V k i s C).
Qed.

(** ** Matrices *)
Lemma columns_ok what r rs rowe l : forall c e, fixed_first l -> can_go_on e l -> exists st e', columns what r rs rowe l c e = Some (st, e').
Proof.
  induction l as [|s l IH]; intros c e F G; cbn [columns]; [eexists; eexists; reflexivity|].
  destruct (accumulate_dim e s l F G) as (e' & -> & G'). destruct (IH (S c) e' (fixed_first_tail _ _ F) G') as (st & e'' & ->).
  eexists; eexists; reflexivity.
Qed.
Lemma columns_total cnt what r rs rowe l : forall c e st e', columns what r rs rowe l c e = Some (st, e') -> index cnt e' = index cnt e + whole_extent cnt l.
Proof.
  induction l as [|s l IH]; intros c e st e'; cbn [columns].
  - intros H. injection H as _ <-. unfold whole_extent. cbn. lia.
  - destruct (accumulate_expr e (dim s)) as [a|] eqn:A; [|discriminate]. destruct (columns what r rs rowe l (S c) a) as [[l' x]|] eqn:S; [|discriminate].
    intros H. injection H as _ <-. rewrite (IH _ _ _ _ S), (accumulate_value _ _ _ _ A), index_dim, whole_cons. lia.
Qed.
Section Run.
  Context (cnt : string -> nat) (b : blocks) (d : string -> lvec).
  Local Notation run := (fold_left (execute cnt b d)).
  Lemma execute_outside out a p q :
    p < index cnt (row_at a) \/ index cnt (row_at a) + extent cnt (of_rows a) <= p \/ q < index cnt (col_at a) \/ index cnt (col_at a) + extent cnt (of_cols a) <= q ->
    execute cnt b d out a p q = out p q.
  Proof.
    intros H. unfold execute. rewrite 2 index_dim.
    destruct (index cnt (row_at a) <=? p) eqn:A; [apply Nat.leb_le in A|reflexivity].
    destruct (p <? index cnt (row_at a) + extent cnt (of_rows a)) eqn:B; [apply Nat.ltb_lt in B|reflexivity].
    destruct (index cnt (col_at a) <=? q) eqn:C; [apply Nat.leb_le in C|reflexivity].
    destruct (q <? index cnt (col_at a) + extent cnt (of_cols a)) eqn:D; [apply Nat.ltb_lt in D|reflexivity]. lia.
  Qed.
  Lemma execute_inside out re ce rs cs w i j : i < extent cnt rs -> j < extent cnt cs ->
    execute cnt b d out (Assign re ce rs cs w) (index cnt re + i) (index cnt ce + j) = source_value b d w i j.
  Proof.
    intros I J. unfold execute. cbn [row_at col_at of_rows of_cols from]. rewrite 2 index_dim.
    replace (index cnt re <=? index cnt re + i) with true by (symmetry; apply Nat.leb_le; lia).
    replace (index cnt re + i <? index cnt re + extent cnt rs) with true by (symmetry; apply Nat.ltb_lt; lia).
    replace (index cnt ce <=? index cnt ce + j) with true by (symmetry; apply Nat.leb_le; lia).
    replace (index cnt ce + j <? index cnt ce + extent cnt cs) with true by (symmetry; apply Nat.ltb_lt; lia).
    cbn [andb]. f_equal; lia.
  Qed.
  Lemma columns_outside what r rs rowe l : forall c e st e' out p q, columns what r rs rowe l c e = Some (st, e') ->
    p < index cnt rowe \/ index cnt rowe + extent cnt rs <= p \/ q < index cnt e -> run st out p q = out p q.
  Proof.
    induction l as [|s l IH]; intros c e st e' out p q; cbn [columns].
    - intros H _. injection H as <- _. reflexivity.
    - destruct (accumulate_expr e (dim s)) as [a|] eqn:A; [|discriminate]. destruct (columns what r rs rowe l (S c) a) as [[l' x]|] eqn:S; [|discriminate].
      intros H O. injection H as <- _. rewrite fold_left_app. rewrite (IH _ _ _ _ _ _ _ S) by (rewrite (accumulate_value _ _ _ _ A); lia).
      destruct (what r rs c s) as [w|]; [|reflexivity]. cbn [fold_left]. apply execute_outside. cbn [row_at col_at of_rows of_cols]. lia.
  Qed.
  Lemma columns_at what r rs rowe l : forall c e st e' out i k j cs, columns what r rs rowe l c e = Some (st, e') ->
    i < extent cnt rs -> component cnt l k j cs ->
    run st out (index cnt rowe + i) (index cnt e + place cnt l k j) =
      match what r rs (c + k) cs with Some w => source_value b d w i j | None => out (index cnt rowe + i) (index cnt e + place cnt l k j) end.
  Proof.
    induction l as [|s l IH]; intros c e st e' out i k j cs; cbn [columns].
    - intros _ _ [H _]. destruct k; discriminate.
    - destruct (accumulate_expr e (dim s)) as [a|] eqn:A; [|discriminate]. destruct (columns what r rs rowe l (S c) a) as [[l' x]|] eqn:S; [|discriminate].
      intros H I [N J]. injection H as <- _. rewrite fold_left_app. destruct k as [|k].
      + cbn in N. injection N as ->. rewrite place_0, Nat.add_0_r.
        rewrite (columns_outside _ _ _ _ _ _ _ _ _ _ _ _ S) by (rewrite (accumulate_value _ _ _ _ A), index_dim; lia).
        destruct (what r rs c cs) as [w|]; [|reflexivity]. cbn [fold_left]. apply execute_inside; assumption.
      + cbn in N. rewrite place_S.
        replace (index cnt e + (extent cnt s + place cnt l k j)) with (index cnt a + place cnt l k j) by (rewrite (accumulate_value _ _ _ _ A), index_dim; lia).
        rewrite (IH _ _ _ _ _ i k j cs S I (conj N J)). replace (Datatypes.S c + k) with (c + Datatypes.S k) by lia.
        destruct (what r rs (c + Datatypes.S k) cs); [reflexivity|]. destruct (what r rs c s) as [w|]; [|reflexivity]. cbn [fold_left].
        apply execute_outside. cbn [row_at col_at of_rows of_cols]. right. right. right. rewrite (accumulate_value _ _ _ _ A), index_dim. lia.
  Qed.
  Lemma rows_outside what cols l : forall r re ce st re' ce' out p q, rows what cols l r re ce = Some (st, re', ce') ->
    p < index cnt re -> run st out p q = out p q.
  Proof.
    induction l as [|s l IH]; intros r re ce st re' ce' out p q; cbn [rows].
    - intros H _. injection H as <- _ _. reflexivity.
    - destruct (columns what r s re cols 0 (PInt 0)) as [[st1 c1]|] eqn:C; [|discriminate].
      destruct (accumulate_expr re (dim s)) as [a|] eqn:A; [|discriminate]. destruct (rows what cols l (S r) a c1) as [[[st2 r2] c2]|] eqn:S; [|discriminate].
      intros H O. injection H as <- _ _. rewrite fold_left_app. rewrite (IH _ _ _ _ _ _ _ _ _ S) by (rewrite (accumulate_value _ _ _ _ A); lia).
      rewrite (columns_outside _ _ _ _ _ _ _ _ _ _ _ _ C) by (left; exact O). reflexivity.
  Qed.
  Lemma rows_at what cols l : forall r re ce st re' ce' out k i rs m j cs, rows what cols l r re ce = Some (st, re', ce') ->
    component cnt l k i rs -> component cnt cols m j cs ->
    run st out (index cnt re + place cnt l k i) (place cnt cols m j) =
      match what (r + k) rs m cs with Some w => source_value b d w i j | None => out (index cnt re + place cnt l k i) (place cnt cols m j) end.
  Proof.
    induction l as [|s l IH]; intros r re ce st re' ce' out k i rs m j cs; cbn [rows].
    - intros _ [H _]. destruct k; discriminate.
    - destruct (columns what r s re cols 0 (PInt 0)) as [[st1 c1]|] eqn:C; [|discriminate].
      destruct (accumulate_expr re (dim s)) as [a|] eqn:A; [|discriminate]. destruct (rows what cols l (S r) a c1) as [[[st2 r2] c2]|] eqn:S; [|discriminate].
      intros H [N I] M. injection H as <- _ _. rewrite fold_left_app. destruct k as [|k].
      + cbn in N. injection N as ->. rewrite place_0, Nat.add_0_r.
        rewrite (rows_outside _ _ _ _ _ _ _ _ _ _ _ _ S) by (rewrite (accumulate_value _ _ _ _ A), index_dim; lia).
        exact (columns_at _ _ _ _ _ _ _ _ _ out i m j cs C I M).
      + cbn in N. rewrite place_S.
        replace (index cnt re + (extent cnt s + place cnt l k i)) with (index cnt a + place cnt l k i) by (rewrite (accumulate_value _ _ _ _ A), index_dim; lia).
        rewrite (IH _ _ _ _ _ _ _ k i rs m j cs S (conj N I) M). replace (Datatypes.S r + k) with (r + Datatypes.S k) by lia.
        destruct (what (r + Datatypes.S k) rs m cs); [reflexivity|].
        apply (columns_outside _ _ _ _ _ _ _ _ _ _ _ _ C). right. left. rewrite (accumulate_value _ _ _ _ A), index_dim. lia.
  Qed.
End Run.
Lemma rows_ok what cols l : fixed_first cols -> forall r re ce, fixed_first l -> can_go_on re l -> exists st re' ce', rows what cols l r re ce = Some (st, re', ce').
Proof.
  intros FC. induction l as [|s l IH]; intros r re ce F G; cbn [rows]; [repeat eexists|].
  destruct (columns_ok what r s re cols 0 (PInt 0) FC (or_introl (ex_intro _ 0 eq_refl))) as (st & e' & ->).
  destruct (accumulate_dim re s l F G) as (a & -> & G'). destruct (IH (S r) a e' (fixed_first_tail _ _ F) G') as (st' & x & y & ->). repeat eexists.
Qed.
Lemma rows_total cnt what cols l : forall r re ce st re' ce', rows what cols l r re ce = Some (st, re', ce') ->
  index cnt re' = index cnt re + whole_extent cnt l /\ (l <> [] -> index cnt ce' = whole_extent cnt cols).
Proof.
  induction l as [|s l IH]; intros r re ce st re' ce'; cbn [rows].
  - intros H. injection H as _ <- <-. split; [unfold whole_extent; cbn; lia|congruence].
  - destruct (columns what r s re cols 0 (PInt 0)) as [[st1 c1]|] eqn:C; [|discriminate].
    destruct (accumulate_expr re (dim s)) as [a|] eqn:A; [|discriminate]. destruct (rows what cols l (S r) a c1) as [[[st2 r2] c2]|] eqn:S; [|discriminate].
    intros H. injection H as _ <- <-. destruct (IH _ _ _ _ _ _ S) as [X Y]. split.
    + rewrite X, (accumulate_value _ _ _ _ A), index_dim, whole_cons. lia.
    + intros _. destruct l as [|s' l].
      * cbn [rows] in S. injection S as _ _ <-. exact (columns_total cnt _ _ _ _ _ _ _ _ _ C).
      * apply Y. discriminate.
Qed.
Lemma dense_matrix_ok what sym rws cols cnt b d junk : rws <> [] -> fixed_first rws -> fixed_first cols ->
  exists m, dense_matrix what sym rws cols cnt b d junk = Some (whole_extent cnt rws, whole_extent cnt cols, if sym then lower_from_upper m else m) /\
    forall k i rs l j cs, component cnt rws k i rs -> component cnt cols l j cs ->
      m (place cnt rws k i) (place cnt cols l j) =
        match what k rs l cs with Some w => source_value b d w i j | None => junk (place cnt rws k i) (place cnt cols l j) end.
Proof.
  intros NE FR FC. unfold dense_matrix. destruct (rows_ok what cols rws FC 0 (PInt 0) (PInt 0) FR (or_introl (ex_intro _ 0 eq_refl))) as (st & re & ce & S). rewrite S.
  destruct (rows_total cnt _ _ _ _ _ _ _ _ _ S) as [-> Y]. rewrite (Y NE). eexists. split; [reflexivity|].
  intros k i rs l j cs K L. exact (rows_at cnt b d what cols rws 0 (PInt 0) _ _ _ _ junk k i rs l j cs S K L).
Qed.
Lemma place_in cnt l : forall k i s, component cnt l k i s -> place cnt l k i < whole_extent cnt l.
Proof.
  induction l as [|s0 l IH]; intros k i s [N L]; [destruct k; discriminate|]. rewrite whole_cons. destruct k as [|k].
  - cbn in N. injection N as ->. rewrite place_0. lia.
  - cbn in N. rewrite place_S. pose proof (IH k i s (conj N L)). lia.
Qed.
Lemma place_mono cnt l : forall k i s k' i' s', component cnt l k i s -> component cnt l k' i' s' -> k < k' \/ (k = k' /\ i < i') -> place cnt l k i < place cnt l k' i'.
Proof.
  induction l as [|s0 l IH]; intros k i s k' i' s' [N L] [N' L'] O; [destruct k; discriminate|].
  destruct k as [|k], k' as [|k']; try lia.
  - rewrite 2 place_0. lia.
  - rewrite place_0, place_S. cbn in N. injection N as ->. lia.
  - cbn in N, N'. rewrite 2 place_S. pose proof (IH k i s k' i' s' (conj N L) (conj N' L')). lia.
Qed.
(** every position is a component of some member *)
Lemma place_onto cnt l : forall p, p < whole_extent cnt l -> exists k i s, component cnt l k i s /\ place cnt l k i = p.
Proof.
  induction l as [|s0 l IH]; intros p H; [unfold whole_extent in H; cbn in H; lia|]. rewrite whole_cons in H.
  destruct (le_lt_dec (extent cnt s0) p) as [G|G].
  - destruct (IH (p - extent cnt s0) ltac:(lia)) as (k & i & s & [N L] & E). exists (S k), i, s. split; [split; assumption|]. rewrite place_S. lia.
  - exists 0, p, s0. split; [split; [reflexivity|assumption]|]. apply place_0.
Qed.

Lemma covariance_dense_ok l cnt b junk : l <> [] -> fixed_first l ->
  exists m, covariance_dense l cnt b junk = Some (whole_extent cnt l, whole_extent cnt l, m) /\
    forall k i r k' j c, component cnt l k i r -> component cnt l k' j c ->
      m (place cnt l k i) (place cnt l k' j) = if (k <? k') || ((k =? k') && (i <=? j)) then b (name r) (name c) i j else b (name c) (name r) j i.
Proof.
  intros NE F. unfold covariance_dense. destruct (dense_matrix_ok upper true l l cnt b (fun _ _ => 0%R) junk NE F F) as (m & E & M). rewrite E.
  eexists. split; [reflexivity|]. intros k i r k' j c K K'. unfold lower_from_upper.
  destruct (lt_eq_lt_dec k k') as [[O|O]|O].
  - replace (k <? k') with true by (symmetry; apply Nat.ltb_lt; exact O). cbn [orb].
    pose proof (place_mono cnt l _ _ _ _ _ _ K K' (or_introl O)). destruct (place cnt l k' j <? place cnt l k i) eqn:X; [apply Nat.ltb_lt in X; lia|].
    rewrite (M _ _ _ _ _ _ K K'). unfold upper. destruct (k' <? k) eqn:Y; [apply Nat.ltb_lt in Y; lia|]. reflexivity.
  - subst k'. rewrite Nat.ltb_irrefl, Nat.eqb_refl. cbn [orb andb]. destruct (i <=? j) eqn:Z.
    + apply Nat.leb_le in Z. destruct (place cnt l k j <? place cnt l k i) eqn:X.
      * apply Nat.ltb_lt in X. unfold place in X. lia.
      * rewrite (M _ _ _ _ _ _ K K'). unfold upper. rewrite Nat.ltb_irrefl. reflexivity.
    + apply Nat.leb_gt in Z. pose proof (place_mono cnt l _ _ _ _ _ _ K' K (or_intror (conj eq_refl Z))) as X. apply Nat.ltb_lt in X. rewrite X.
      rewrite (M _ _ _ _ _ _ K' K). unfold upper. rewrite Nat.ltb_irrefl. reflexivity.
  - destruct (k <? k') eqn:Y; [apply Nat.ltb_lt in Y; lia|]. destruct (k =? k') eqn:Y'; [apply Nat.eqb_eq in Y'; lia|]. cbn [orb andb].
    pose proof (place_mono cnt l _ _ _ _ _ _ K' K (or_introl O)) as X. apply Nat.ltb_lt in X. rewrite X.
    rewrite (M _ _ _ _ _ _ K' K). unfold upper. rewrite Y. reflexivity.
Qed.
Lemma process_dense_ok l cnt q junk : l <> [] -> fixed_first l ->
  exists m, process_covariance_dense l cnt q junk = Some (whole_extent cnt l, whole_extent cnt l, m) /\
    forall k i r k' j c, component cnt l k i r -> component cnt l k' j c ->
      m (place cnt l k i) (place cnt l k' j) = if (k =? k') && (i =? j) then q (name r) (if variable r then i mod base_dx r else i) else 0%R.
Proof.
  intros NE F. unfold process_covariance_dense. destruct (dense_matrix_ok only_diagonal false l l cnt (fun _ _ _ _ => 0%R) q junk NE F F) as (m & E & M). rewrite E.
  eexists. split; [reflexivity|]. intros k i r k' j c K K'. rewrite (M _ _ _ _ _ _ K K'). unfold only_diagonal. rewrite (Nat.eqb_sym k' k).
  destruct (k =? k'); cbn [andb source_value]; reflexivity.
Qed.
Lemma jacobian_dense_ok deps rws cols cnt b junk : rws <> [] -> fixed_first rws -> fixed_first cols ->
  exists m, jacobian_dense deps rws cols cnt b junk = Some (whole_extent cnt rws, whole_extent cnt cols, m) /\
    forall k i r l j c, component cnt rws k i r -> component cnt cols l j c ->
      (In (name r, name c) deps -> m (place cnt rws k i) (place cnt cols l j) = b (name r) (name c) i j) /\
      (~ In (name r, name c) deps -> m (place cnt rws k i) (place cnt cols l j) = 0%R).
Proof.
  intros NE FR FC. unfold jacobian_dense. destruct (dense_matrix_ok (jacobian deps) false rws cols cnt b (fun _ _ => 0%R) junk NE FR FC) as (m & E & M). rewrite E.
  eexists. split; [reflexivity|]. intros k i r l j c K L. rewrite (M _ _ _ _ _ _ K L). unfold jacobian.
  assert (X : listed deps r c = true <-> In (name r, name c) deps).
  { unfold listed. rewrite existsb_exists. split.
    - intros ([x y] & I & H). cbn [fst snd] in H. apply andb_true_iff in H. destruct H as [H1 H2]. apply String.eqb_eq in H1, H2. subst x y. exact I.
    - intros I. exists (name r, name c). split; [exact I|]. cbn [fst snd]. rewrite 2 String.eqb_refl. reflexivity. }
  destruct (listed deps r c); cbn [source_value]; split; intros H; try reflexivity; exfalso; destruct X as [X1 X2]; [apply H, X1; reflexivity|specialize (X2 H); discriminate].
Qed.

(** ** The size of a state *)
Lemma accumulate_size cnt l : forall e e', accumulate size_dim l e = Some e' -> (forall s, In s l -> bundle s <> None -> base_dx s = 1) ->
  index cnt e' = index cnt e + whole_extent cnt l.
Proof.
  induction l as [|s l IH]; intros e e'; cbn [accumulate].
  - intros H _. injection H as <-. unfold whole_extent. cbn. lia.
  - destruct (accumulate_expr e (size_dim s)) as [a|] eqn:A; [|discriminate]. intros H B.
    rewrite (IH _ _ H) by (intros t I; apply B; right; exact I). rewrite (accumulate_value _ _ _ _ A), whole_cons.
    replace (index cnt (size_dim s)) with (extent cnt s); [lia|]. specialize (B s (or_introl eq_refl)). unfold size_dim, extent, variable, dx, base_dx in *. change freedom with error_state_size.
    destruct (bundle s); cbn; [|lia]. rewrite B by discriminate. lia.
Qed.
Lemma accumulate_size_ok l : forall e, fixed_first l -> can_go_on e l -> exists e', accumulate size_dim l e = Some e'.
Proof.
  induction l as [|s l IH]; intros e F G; cbn [accumulate]; [eexists; reflexivity|].
  destruct (accumulate_dim e s l F G) as (e' & E & G').
  assert (X : exists a, accumulate_expr e (size_dim s) = Some a /\ can_go_on a l).
  { unfold dim, size_dim in *. destruct (variable s).
    - cbn [accumulate_expr] in *. eexists. split; [reflexivity|]. injection E as <-. destruct G' as [(n & X)|G']; [discriminate|]. right. exact G'.
    - eexists. split; [exact E|exact G']. }
  destruct X as (a & -> & GA). exact (IH a (fixed_first_tail _ _ F) GA).
Qed.

(** ** The initial covariance *)
Lemma tile_junk a v h junk : tile a v h junk = junk.
Proof.
  unfold tile. assert (X : forall out l, fold_left (fun out j => tile_body a 0 j out) l out = out) by (intros out l; revert out; induction l as [|x l IH]; intros out; [reflexivity|cbn [fold_left]; apply IH]).
  generalize (seq 0 v). intros l. revert junk. induction l as [|i l IH]; intros junk; [reflexivity|]. cbn [fold_left].
  replace (fold_left (fun out j => tile_body a i j out) (seq 0 h) junk) with junk; [apply IH|]. symmetry. exact (X junk (seq 0 h)).
Qed.
Lemma covariance_of_other l q temp : forall mem r c, (forall s, In s l -> name s = r -> name s = c -> False) -> covariance_of l q temp mem r c = mem r c.
Proof.
  unfold covariance_of. induction l as [|s l IH]; intros mem r c H; [reflexivity|]. cbn [fold_left]. rewrite IH by (intros t I; apply H; right; exact I).
  unfold set_block at 1. destruct (String.eqb r (name s)) eqn:R; [|reflexivity]. destruct (String.eqb c (name s)) eqn:C; [|reflexivity].
  apply String.eqb_eq in R, C. exfalso. exact (H s (or_introl eq_refl) (eq_sym R) (eq_sym C)).
Qed.
Lemma covariance_of_fixed l q temp : forall mem s, NoDup (map name l) -> In s l -> bundle s = None -> forall i j, i < base_dx s -> j < base_dx s ->
  covariance_of l q temp mem (name s) (name s) i j = if i =? j then q (name s) i else 0%R.
Proof.
  induction l as [|s0 l IH]; intros mem s D I B i j Hi Hj; [destruct I|]. cbn [map] in D. apply NoDup_cons_iff in D. destruct D as [D0 D].
  destruct I as [->|I].
  - change (covariance_of (s :: l) q temp mem) with (covariance_of l q temp (set_block mem (name s) (name s) (dx s) (dx s)
      match bundle s with Some n => tile (as_diagonal (q (name s))) n n (temp (name s)) | None => as_diagonal (q (name s)) end)).
    rewrite covariance_of_other by (intros t I E _; apply D0; rewrite <- E; apply in_map; exact I).
    unfold set_block. rewrite String.eqb_refl. cbn [andb]. unfold dx. rewrite B.
    replace (i <? base_dx s) with true by (symmetry; apply Nat.ltb_lt; exact Hi). replace (j <? base_dx s) with true by (symmetry; apply Nat.ltb_lt; exact Hj). reflexivity.
  - exact (IH _ s D I B i j Hi Hj).
Qed.

(** ** Accessors *)
Lemma string_app_eq a x y : append a x = append a y -> x = y.
Proof. induction a as [|c a IH]; cbn; [auto|]. intros H. injection H as H. exact (IH H). Qed.
Lemma bound_one p a cnt c : p = append "int " c -> bound [p] [a] cnt c = cnt a.
Proof. intros ->. cbn [bound]. rewrite String.eqb_refl. reflexivity. Qed.
Lemma accessed_ok order cnt rs cs : is_order order -> bundle rs = None \/ bundle cs = None \/ counter_var rs = counter_var cs ->
  accessed order cnt rs cs = (extent cnt rs, extent cnt cs).
Proof.
  intros O H. unfold accessed.
  assert (X : forall s, (s = rs \/ s = cs) -> index (bound (parameters order rs cs) (arguments order rs cs) cnt) (dim s) = extent cnt s).
  { intros s S. unfold parameters, arguments, counters. rewrite index_dim. unfold extent. destruct (bundle s) as [n|] eqn:B; [|reflexivity]. f_equal.
    assert (G : forall l, l = [counter_var s] \/ l = [counter_var s; counter_var s] -> bound (order (map (append "int ") l)) (order l) cnt (counter_var s) = cnt (counter_var s)).
    { intros l L. assert (N1 : nodup string_dec l = [counter_var s]).
      { destruct L as [-> | ->]; cbn [nodup]; [reflexivity|]. destruct (in_dec string_dec (counter_var s) [counter_var s]) as [_|X]; [reflexivity|]. exfalso. apply X. left; reflexivity. }
      assert (N2 : nodup string_dec (map (append "int ") l) = [append "int " (counter_var s)]).
      { destruct L as [-> | ->]; cbn [map nodup]; [reflexivity|]. destruct (in_dec string_dec (append "int " (counter_var s)) [append "int " (counter_var s)]) as [_|X]; [reflexivity|]. exfalso. apply X. left; reflexivity. }
      pose proof (O l) as P1. pose proof (O (map (append "int ") l)) as P2. rewrite N1 in P1. rewrite N2 in P2.
      apply Permutation_sym, Permutation_length_1_inv in P1. apply Permutation_sym, Permutation_length_1_inv in P2. rewrite P1, P2. apply bound_one. reflexivity. }
    apply G. cbn [filter]. unfold variable.
    destruct S as [-> | ->].
    - rewrite B. destruct (bundle cs) eqn:C; cbn [map]; [|left; reflexivity]. destruct H as [H|[H|H]]; [congruence|congruence|]. right. rewrite <- H. reflexivity.
    - rewrite B. destruct (bundle rs) eqn:C; cbn [map]; [|left; reflexivity]. destruct H as [H|[H|H]]; [congruence|congruence|]. right. rewrite H. reflexivity. }
  cbv zeta. rewrite (X rs (or_introl eq_refl)), (X cs (or_intror eq_refl)). reflexivity.
Qed.

(** ** Checks and gate *)
Lemma whole_same n N x r : N <= n -> leq N (whole_vector n x r) x.
Proof. intros L i H. unfold whole_vector. replace (i <? n) with true by (symmetry; apply Nat.ltb_lt; lia). reflexivity. Qed.
Lemma gate_zero N n max sinv res rest_sinv rest_res : n <= N -> (forall i, n <= i -> i < N -> rest_res i = 0%R) ->
  gated N n max sinv res rest_sinv rest_res = if Rlt_dec max (ldot n res (lmv n sinv res)) then true else false.
Proof.
  intros L Z. unfold gated. cbv zeta.
  assert (W0 : forall i, n <= i < N -> whole_vector n res rest_res i = 0%R).
  { intros i H. unfold whole_vector. destruct (i <? n) eqn:E; [apply Nat.ltb_lt in E; lia|]. apply Z; lia. }
  assert (W1 : forall i, i < n -> whole_vector n res rest_res i = res i).
  { intros i H. unfold whole_vector. replace (i <? n) with true by (symmetry; apply Nat.ltb_lt; exact H). reflexivity. }
  replace (ldot N (whole_vector n res rest_res) (lmv N (whole_matrix n sinv rest_sinv) (whole_vector n res rest_res))) with (ldot n res (lmv n sinv res)); [reflexivity|].
  symmetry. unfold ldot. rewrite (sum_cut N n) by (try lia; intros i H; rewrite (W0 i H); ring).
  apply sum_ext. intros i Hi. rewrite (W1 i Hi). f_equal. unfold lmv. rewrite (sum_cut N n) by (try lia; intros j H; rewrite (W0 j H); ring).
  apply sum_ext. intros j Hj. rewrite (W1 j Hj). f_equal. unfold whole_matrix.
  replace (i <? n) with true by (symmetry; apply Nat.ltb_lt; exact Hi). replace (j <? n) with true by (symmetry; apply Nat.ltb_lt; exact Hj). reflexivity.
Qed.
(** whatever the measurement, some contents of the memory behind it decide the gate *)
Lemma gate_junk N n max sinv res : n < N -> exists rest_sinv rest_res, gated N n max sinv res rest_sinv rest_res = true.
Proof.
  intros L. set (m0 := ldot n res (lmv n sinv res)).
  exists (fun i j => if i =? j then (Rabs max + Rabs m0 + 1)%R else 0%R), (fun i => if i =? n then 1%R else 0%R).
  unfold gated. cbv zeta. match goal with |- (if Rlt_dec max ?x then _ else _) = _ => assert (E : x = (m0 + (Rabs max + Rabs m0 + 1))%R) end.
  - set (K := (Rabs max + Rabs m0 + 1)%R). set (w := whole_vector n res (fun i => if i =? n then 1%R else 0%R)). set (W := whole_matrix n sinv (fun i j => if i =? j then K else 0%R)).
    assert (W1 : forall i, i < n -> w i = res i) by (intros i H; unfold w, whole_vector; replace (i <? n) with true by (symmetry; apply Nat.ltb_lt; exact H); reflexivity).
    assert (W2 : w n = 1%R) by (unfold w, whole_vector; rewrite Nat.ltb_irrefl, Nat.eqb_refl; reflexivity).
    assert (W3 : forall i, S n <= i < N -> w i = 0%R).
    { intros i H. unfold w, whole_vector. destruct (i <? n) eqn:E; [apply Nat.ltb_lt in E; lia|]. destruct (i =? n) eqn:F; [apply Nat.eqb_eq in F; lia|]. reflexivity. }
    assert (W4 : lmv N W w n = K).
    { unfold lmv. rewrite (sum_one N _ n L).
      - rewrite W2. unfold W, whole_matrix. rewrite Nat.ltb_irrefl, Nat.eqb_refl. cbn [andb]. ring.
      - intros j Hj D. unfold W, whole_matrix. rewrite Nat.ltb_irrefl. cbn [andb]. destruct (n =? j) eqn:F; [apply Nat.eqb_eq in F; congruence|]. ring. }
    unfold ldot. rewrite (sum_cut N (S n)) by (try lia; intros i H; rewrite (W3 i H); ring).
    change (sum (S n) ?f) with (sum n f + f n)%R. cbv beta. rewrite W2, W4. rewrite Rmult_1_l. f_equal.
    unfold m0, ldot. apply sum_ext. intros i Hi. rewrite (W1 i Hi). f_equal. unfold lmv. rewrite (sum_cut N n).
    + apply sum_ext. intros j Hj. rewrite (W1 j Hj). f_equal. unfold W, whole_matrix.
      replace (i <? n) with true by (symmetry; apply Nat.ltb_lt; exact Hi). replace (j <? n) with true by (symmetry; apply Nat.ltb_lt; exact Hj). reflexivity.
    + lia.
    + intros j Hj. unfold W, whole_matrix. replace (i <? n) with true by (symmetry; apply Nat.ltb_lt; exact Hi). destruct (j <? n) eqn:F; [apply Nat.ltb_lt in F; lia|]. cbn [andb].
      destruct (i =? j) eqn:G; [apply Nat.eqb_eq in G; lia|]. ring.
  - rewrite E. destruct (Rlt_dec max (m0 + (Rabs max + Rabs m0 + 1))) as [_|X]; [reflexivity|]. exfalso. apply X.
    pose proof (Rle_abs max). pose proof (Rle_abs (- m0)) as A. rewrite Rabs_Ropp in A. lra.
Qed.
Lemma feq_refl x : feq x x = negb (is_nan x).
Proof.
  destruct x as [s|s| |s m e h]; try reflexivity; [destruct s; reflexivity|].
  unfold feq, Beqb. cbn [B2SF]. unfold SpecFloat.SFeqb, SpecFloat.SFcompare. rewrite Z.compare_refl, Pos.compare_cont_refl. destruct s; reflexivity.
Qed.
Lemma finite_array m : is_finite_array m = true <-> forall x, In x m -> is_nan x = false.
Proof.
  unfold is_finite_array. rewrite forallb_forall. split; intros H x I; specialize (H x I); rewrite feq_refl in *; destruct (is_nan x); cbn in *; congruence.
Qed.
