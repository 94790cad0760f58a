(** Simplification keeps the matrix an expression stands for. *)
From Coq Require Import String Ascii List Arith Bool Reals Lia Lra Permutation.
From Verif Require Import LinSpec LinProofs SymModel SymSpec SymProofs SymSimpProofs.
Import ListNotations.
Local Open Scope nat_scope.

(** ** Shapes, without regard to how a product is nested *)
Fixpoint grid (e : ex) : Prop :=
  match e with
  | Const n r c => one r = false /\ (n = "I"%string -> r = c)
  | Trans b => match b with Const n r c => one c = false | _ => False end
  | Mult r c _ l => (fix all l := match l with [] => True | t :: k => grid t /\ all k end) l /\ l <> [] /\ path r l c
  | Add r c l => (fix all l := match l with [] => True | t :: k => (grid t /\ rows t = r /\ cols t = c) /\ all k end) l /\ l <> []
  end.
Definition fit (r c : dim) (t : ex) : Prop := grid t /\ rows t = r /\ cols t = c.
Lemma grid_mult r c m l : grid (Mult r c m l) <-> Forall grid l /\ l <> [] /\ path r l c.
Proof.
  cbn [grid].
  assert (H : (fix all l := match l with [] => True | t :: k => grid t /\ all k end) l <-> Forall grid l).
  { induction l as [| t l IH].
    - split; intros _; [constructor| exact I].
    - split; intros H; [destruct H; constructor; [assumption| now apply IH]|]. inversion H; subst. split; [assumption| now apply IH]. }
  rewrite H. tauto.
Qed.
Lemma grid_add r c l : grid (Add r c l) <-> Forall (fit r c) l /\ l <> [].
Proof.
  cbn [grid].
  assert (H : (fix all l := match l with [] => True | t :: k => (grid t /\ rows t = r /\ cols t = c) /\ all k end) l <-> Forall (fit r c) l).
  { induction l as [| t l IH].
    - split; intros _; [constructor| exact I].
    - split; intros H; [destruct H; constructor; [assumption| now apply IH]|]. inversion H; subst. split; [assumption| now apply IH]. }
  rewrite H. tauto.
Qed.
Lemma tidy_grid e : tidy e -> grid e.
Proof.
  induction e as [n r c| b IH| r c m l IH| r c l IH] using ex_ind'; intros H.
  - cbn in *. tauto.
  - cbn in *. destruct b; tauto.
  - pose proof (tidy_mult_terms _ _ _ _ H) as Ht. apply tidy_mult in H as (_ & H2 & H3 & _). apply grid_mult. split; [|split; [destruct l; [cbn in H2; lia| discriminate]| exact H3]].
    rewrite Forall_forall in *. auto.
  - apply tidy_add in H as [Hl Hn]. apply grid_add. split; [|exact Hn]. rewrite Forall_forall in *. intros t Ht. destruct (Hl t Ht) as (T & R & C). split; auto.
Qed.
Lemma grid_rows e : grid e -> one (rows e) = false.
Proof.
  induction e as [n r c| b IH| r c m l IH| r c l IH] using ex_ind'; intros H.
  - cbn in *. tauto.
  - cbn in H. destruct b; try contradiction; cbn; tauto.
  - apply grid_mult in H as (Hl & Hn & Hp). destruct l as [| t l]; [now destruct Hn|]. cbn [path] in Hp. cbn [rows]. rewrite <- (proj1 Hp).
    inversion IH; subst. inversion Hl; subst. tauto.
  - apply grid_add in H as [Hl Hn]. destruct l as [| t l]; [now destruct Hn|].
    inversion IH as [| ? ? IHt _]; subst. inversion Hl as [| ? ? (Ht & Hr & Hc) _]; subst. cbn [rows]. auto.
Qed.
Lemma grid_scalar e : grid e -> is_scalar e = false.
Proof. intros H. unfold is_scalar. now rewrite (grid_rows e H). Qed.

(** ** The products an expression expands to fit, and their sum is its value *)
Lemma mon_path e : grid e -> forall m, In m (mon e) -> path (rows e) m (cols e).
Proof.
  induction e as [n r c| b IH| r c k l IH| r c l IH] using ex_ind'; intros H m Hm.
  - cbn [monomials] in Hm. cbn [rows cols]. destruct (String.eqb n "I") eqn:En.
    + apply String.eqb_eq in En. destruct Hm as [<-|[]]. cbn in *. tauto.
    + destruct Hm as [<-|[]]. cbn. auto.
  - destruct Hm as [<-|[]]. cbn [path rows cols]. auto.
  - rewrite mon_mult in Hm. apply grid_mult in H as (Hl & _ & Hp). cbn [rows cols]. revert r m Hp Hm.
    induction l as [| t l IHl]; intros r m Hp Hm; cbn [mons path] in *.
    + destruct Hm as [<-|[]]. exact Hp.
    + apply lprod_in in Hm as (x & y & Hx & Hy & ->). inversion IH as [| ? ? IHt IHr]; subst. inversion Hl as [| ? ? Gt Gl]; subst. destruct Hp as [<- Hp].
      apply (path_app _ _ _ (cols t)); auto.
  - rewrite mon_add in Hm. apply grid_add in H as [Hl _]. apply in_flat_map in Hm as (t & Ht & Hm). rewrite Forall_forall in *. destruct (Hl t Ht) as (G & R & C).
    cbn [rows cols]. rewrite <- R, <- C. now apply IH.
Qed.
Section Env.
Variable E : env.
Local Open Scope R_scope.
Fixpoint prodm (l : list ex) : lmat := match l with [] => lid | t :: r => lmm (sz E (cols t)) (eval E t) (prodm r) end.
Fixpoint msum (L : list (list ex)) (i j : nat) : R := match L with [] => 0 | m :: r => prodm m i j + msum r i j end.
Lemma msum_perm L L' : Permutation L L' -> forall i j, msum L i j = msum L' i j.
Proof. induction 1; intros i j; cbn [msum]; [reflexivity| now rewrite IHPermutation| ring| congruence]. Qed.
Lemma msum_app a b i j : msum (a ++ b) i j = msum a i j + msum b i j.
Proof. induction a as [| x a IH]; cbn [msum app]; [ring|]. rewrite IH. ring. Qed.
Lemma prodm_app a : forall r b k i j, path r a k -> (i < sz E r)%nat -> prodm (a ++ b) i j = lmm (sz E k) (prodm a) (prodm b) i j.
Proof.
  induction a as [| t a IH]; intros r b k i j Hp Hi; cbn [app prodm].
  - cbn in Hp. subst k. symmetry. apply (lmm_id_l (sz E r) (S j)); lia.
  - cbn [path] in Hp. destruct Hp as [Hr Hp]. rewrite lmm_assoc. unfold lmm at 1 3. apply sum_ext. intros x Hx. f_equal. exact (IH (cols t) b k x j Hp Hx).
Qed.
Lemma msum_lprod r k a b i j : (forall x, In x a -> path r x k) -> (i < sz E r)%nat ->
  msum (lprod a b) i j = lmm (sz E k) (msum a) (msum b) i j.
Proof.
  intros Ha Hi. unfold lprod. induction a as [| x a IH]; cbn [flat_map msum].
  - unfold lmm. symmetry. apply sum_zero. intros. ring.
  - rewrite msum_app, IH by (intros; apply Ha; now right).
    assert (Hx : msum (map (fun y => (x ++ y)%list) b) i j = lmm (sz E k) (prodm x) (msum b) i j).
    { assert (Hp : path r x k) by (apply Ha; now left). clear IH Ha. induction b as [| y b IHb]; cbn [map msum].
      - unfold lmm. symmetry. apply sum_zero. intros. ring.
      - rewrite IHb, (prodm_app x r y k i j Hp Hi). unfold lmm. rewrite <- sum_plus. apply sum_ext. intros. ring. }
    rewrite Hx. unfold lmm. rewrite <- sum_plus. apply sum_ext. intros. ring.
Qed.
Lemma eval_mon e : grid e -> lmeq (sz E (rows e)) (sz E (cols e)) (eval E e) (msum (mon e)).
Proof.
  induction e as [n r c| b IH| r c k l IH| r c l IH] using ex_ind'; intros H i j Hi Hj.
  - cbn [monomials]. destruct (String.eqb n "I") eqn:En; cbn [msum prodm].
    + apply String.eqb_eq in En. subst n. cbn [eval]. unfold named. cbn. ring.
    + cbn [cols] in *. rewrite (lmm_id_r _ (S i) _ i j) by lia. ring.
  - cbn [monomials msum prodm]. rewrite (lmm_id_r _ (S i) _ i j) by lia. ring.
  - rewrite mon_mult. apply grid_mult in H as (Hl & _ & Hp). cbn [rows cols] in *. rewrite eval_mult.
    assert (Hs : scale E l = 1).
    { clear - Hl. induction Hl as [| t l Gt Gl IHl]; cbn [scale]; [reflexivity|]. rewrite (grid_scalar t Gt), IHl. ring. }
    assert (Hc : chain E l = prodm l).
    { clear - Hl. induction Hl as [| t l Gt Gl IHl]; cbn [chain prodm]; [reflexivity|]. now rewrite (grid_scalar t Gt), IHl. }
    rewrite Hs, Hc, Rmult_1_l. clear Hs Hc. revert r i Hp Hi. induction l as [| t l IHl]; intros r i Hp Hi; cbn [mons prodm path] in *.
    + cbn [msum]. cbn [prodm]. ring.
    + inversion IH as [| ? ? IHt IHr]; subst. inversion Hl as [| ? ? Gt Gl]; subst. destruct Hp as [Hr Hp].
      rewrite (msum_lprod r (cols t)); [|intros x Hx; rewrite <- Hr; now apply mon_path| exact Hi].
      unfold lmm. apply sum_ext. intros x Hx. f_equal; [apply IHt; [exact Gt| now rewrite Hr| exact Hx]|]. exact (IHl IHr Gl (cols t) x Hp Hx).
  - rewrite mon_add, eval_add. apply grid_add in H as [Hl _]. cbn [rows cols] in *. clear - IH Hl Hi Hj. induction l as [| t l IHl]; cbn [added flat_map]; [reflexivity|].
    inversion IH as [| ? ? IHt IHr]; subst. inversion Hl as [| ? ? (G & R & C) Gl]; subst.
    rewrite msum_app, IHl by assumption. f_equal. now apply IHt.
Qed.
Lemma same_products e e' : grid e -> grid e' -> rows e' = rows e -> cols e' = cols e -> Permutation (mon e') (mon e) ->
  lmeq (sz E (rows e)) (sz E (cols e)) (eval E e') (eval E e).
Proof.
  intros G G' R C P i j Hi Hj. rewrite (eval_mon e G i j Hi Hj), <- (msum_perm _ _ P i j). apply eval_mon; [exact G'| now rewrite R| now rewrite C].
Qed.
End Env.

(** ** reduce *)
Definition reduces (again : ex -> option ex) : Prop :=
  forall a e, tidy a -> NoDup (mon a) -> again a = Some e -> grid e /\ rows e = rows a /\ cols e = cols a /\ Permutation (mon e) (mon a).
Lemma factors_nodup l : Forall (fun t => mon t <> []) l -> NoDup (mons l) -> Forall (fun t => NoDup (mon t)) l.
Proof.
  induction l as [| t l IH]; intros Hn Hd; [constructor|]. inversion Hn; subst. cbn [mons] in Hd. constructor.
  - apply (lprod_nodup_l _ (mons l)); [now apply mons_ne| exact Hd].
  - apply IH; [assumption|]. apply (lprod_nodup_r (mon t)); assumption.
Qed.
Lemma terms_nodup l : NoDup (flat_map mon l) -> Forall (fun t => NoDup (mon t)) l.
Proof. induction l as [| t l IH]; intros H; cbn [flat_map] in H; constructor; [now apply NoDup_app_l in H| apply IH; now apply NoDup_app_r in H]. Qed.
Definition like (t u : ex) : Prop := grid u /\ rows u = rows t /\ cols u = cols t /\ Permutation (mon u) (mon t).
Lemma mapo_like (f : ex -> option ex) : forall l l', (forall t u, In t l -> f t = Some u -> like t u) -> mapo f l = Some l' -> Forall2 like l l'.
Proof.
  induction l as [| t l IH]; intros l' Hf H; cbn [mapo] in H; [injection H as <-; constructor|]. unfold bind in H.
  destruct (f t) as [u|] eqn:Eu; [|discriminate]. destruct (mapo f l) as [us|] eqn:Em; [|discriminate]. injection H as <-.
  constructor; [apply Hf; [now left| exact Eu]|]. apply IH; [|reflexivity]. intros x y Hx. apply Hf. now right.
Qed.
Lemma like_path l l' : Forall2 like l l' -> forall r c, path r l c -> path r l' c.
Proof. induction 1 as [| t u l l' (G & R & C & P) Hl IH]; intros r c Hp; cbn [path] in *; [exact Hp|]. destruct Hp. split; [congruence|]. rewrite C. auto. Qed.
Lemma like_mons l l' : Forall2 like l l' -> Permutation (mons l') (mons l).
Proof. induction 1 as [| t u l l' (G & R & C & P) Hl IH]; cbn [mons]; [reflexivity|]. now apply lprod_perm. Qed.
Lemma like_sums l l' : Forall2 like l l' -> Permutation (flat_map mon l') (flat_map mon l).
Proof. induction 1 as [| t u l l' (G & R & C & P) Hl IH]; cbn [flat_map]; [reflexivity|]. now apply Permutation_app. Qed.
Lemma like_grid l l' : Forall2 like l l' -> Forall grid l'.
Proof. induction 1 as [| t u l l' (G & R & C & P) Hl IH]; constructor; auto. Qed.
Lemma like_ne l l' : Forall2 like l l' -> l <> [] -> l' <> [].
Proof. intros H. destruct H; [auto| discriminate]. Qed.
Lemma tidy_like t : tidy t -> like t t.
Proof. intros H. split; [now apply tidy_grid|]. auto. Qed.
Lemma mult_like r c m l l' : tidy (Mult r c m l) -> Forall2 like l l' -> like (Mult r c m l) (Mult r c m l').
Proof.
  intros Ht Hl. pose proof Ht as Ht'. apply tidy_mult in Ht' as (_ & Hn & Hp & _). split; [|split; [reflexivity|]; split; [reflexivity|]; rewrite !mon_mult; now apply like_mons].
  apply grid_mult. split; [now apply (like_grid l)|]. split; [apply (like_ne l); [exact Hl| destruct l; [cbn in Hn; lia| discriminate]]|]. now apply (like_path l).
Qed.
Lemma reduce_add_like again t u : reduces again -> tidy t -> NoDup (mon t) -> reduce_add again t = Some u -> like t u.
Proof.
  intros Hag Ht Hd H. unfold reduce_add in H. destruct (is_add t); [|injection H as <-; now apply tidy_like]. exact (Hag t u Ht Hd H).
Qed.
Lemma product_terms r c m l : tidy (Mult r c m l) -> NoDup (mons l) -> forall t, In t l -> tidy t /\ NoDup (mon t).
Proof.
  intros Ht Hd t Hin. pose proof (tidy_mult_terms _ _ _ _ Ht) as Hl.
  assert (Hn : Forall (fun t => mon t <> []) l) by (eapply Forall_impl; [|exact Hl]; intros x Hx; now apply mon_ne).
  pose proof (factors_nodup l Hn Hd) as Hf. rewrite Forall_forall in *. auto.
Qed.
Lemma reduce_term_like again t u : reduces again -> tidy t -> NoDup (mon t) -> reduce_term again t = Some u -> like t u.
Proof.
  intros Hag Ht Hd H. destruct t as [n r c| b| r c m l| r c l]; cbn [reduce_term] in H.
  - injection H as <-. now apply tidy_like.
  - injection H as <-. now apply tidy_like.
  - unfold bind in H. destruct (mapo (reduce_add again) l) as [l'|] eqn:Em; [|discriminate]. injection H as <-. apply mult_like; [exact Ht|].
    apply (mapo_like (reduce_add again)); [|exact Em]. intros t u Hin Hu. destruct (product_terms r c m l Ht Hd t Hin). now apply (reduce_add_like again).
  - exact (Hag _ _ Ht Hd H).
Qed.
Theorem reduce_ok fuel : reduces (reduce fuel).
Proof.
  induction fuel as [| f IH]; intros a e Ht Hd H; [discriminate|]. cbn [reduce] in H.
  destruct a as [n r c| b| r c m l| r c l]; try (injection H as <-; now apply tidy_like).
  rewrite mon_add in *. unfold bind in H. destruct (factor_loop f (S (List.length l)) 0 l) as [l1|] eqn:E1; [|discriminate].
  pose proof Ht as Ht'. apply tidy_add in Ht' as [Hl Hn].
  assert (Htl : Forall tidy l) by (eapply Forall_impl; [|exact Hl]; intros x Hx; exact (proj1 Hx)).
  apply factor_same in E1; [|exact Htl| exact Hd]. subst l1.
  destruct (combine_factors f (Add r c l)) as [e2|] eqn:E2; [|discriminate]. unfold combine_factors, bind in E2.
  destruct (factor_scalars f (Add r c l)) as [s|] eqn:Es; [|discriminate]. apply factor_scalars_same in Es; [|exact Ht]. subst s.
  destruct (factor_first_term f (Add r c l)) as [e1|] eqn:Ef; [|discriminate].
  destruct (factor_first_ok f r c l e1 Ht Hd Ef) as (T1 & R1 & C1 & P1 & K1).
  assert (H2 : tidy e2 /\ rows e2 = r /\ cols e2 = c /\ Permutation (mon e2) (flat_map mon l)).
  { destruct K1 as [K1|[K1 [g Hg]]].
    - destruct e1 as [| | | r1 c1 l1]; try discriminate. cbn [rows cols] in R1, C1. subst r1 c1. unfold factor_last_term, bind in E2.
      destruct (last_outer f (S (List.length l1)) [] l1) as [o|] eqn:Eo; [|discriminate]. rewrite mon_add in P1.
      pose proof T1 as T1'. apply tidy_add in T1' as [Hl1 _].
      assert (Hd1 : NoDup (flat_map mon l1)) by (eapply Permutation_NoDup; [symmetry; exact P1| exact Hd]).
      pose proof (last_outer_ok f r c _ [] l1 o (Forall_nil _) Hl1 Hd1 Eo) as Ho. cbn [rev app] in Ho. destruct o as [m| t rest].
      + injection E2 as <-. destruct Ho as ((Tm & Rm & Cm) & _ & Pm). repeat (split; [assumption|]). now rewrite Pm.
      + injection E2 as <-. destruct Ho as (Gt & Go & Hp). cbn [rebuild]. split; [apply tidy_add; split; [constructor; auto| discriminate]|].
        split; [reflexivity|]. split; [reflexivity|]. rewrite mon_add, <- P1. exact Hp.
    - destruct e1 as [| | r1 c1 m1 l1|]; try discriminate. rewrite (go_on_last g f r1 c1 m1 l1 _ T1 Hg e2 E2). auto. }
  destruct H2 as (T2 & R2 & C2 & P2).
  assert (D2 : NoDup (mon e2)) by (eapply Permutation_NoDup; [symmetry; exact P2| exact Hd]).
  assert (Hlike : like e2 e).
  { destruct e2 as [n2 r2 c2| b2| r2 c2 m2 l2| r2 c2 l2].
    - injection H as <-. now apply tidy_like.
    - injection H as <-. now apply tidy_like.
    - destruct (mapo (reduce_term (reduce f)) l2) as [l3|] eqn:E3; [|discriminate]. injection H as <-. cbn [rebuild]. apply mult_like; [exact T2|].
      apply (mapo_like (reduce_term (reduce f))); [|exact E3]. intros t u Hin Hu. destruct (product_terms r2 c2 m2 l2 T2 D2 t Hin). now apply (reduce_term_like (reduce f)).
    - destruct (mapo (reduce_term (reduce f)) l2) as [l3|] eqn:E3; [|discriminate]. injection H as <-. cbn [rebuild].
      rewrite mon_add in D2. pose proof (terms_nodup l2 D2) as Hd2. pose proof T2 as T2'. apply tidy_add in T2' as [Hl2 Hn2].
      assert (H3 : Forall2 like l2 l3).
      { apply (mapo_like (reduce_term (reduce f))); [|exact E3]. rewrite Forall_forall in Hd2, Hl2. intros t u Hin Hu. apply (reduce_term_like (reduce f)); auto. apply (Hl2 t Hin). }
      split; [|split; [reflexivity|]; split; [reflexivity|]; rewrite !mon_add; now apply like_sums].
      apply grid_add. split; [|now apply (like_ne l2)]. clear - H3 Hl2. induction H3 as [| t u l2 l3 (G & R & C & P) Hr IHr]; [constructor|].
      inversion Hl2 as [| ? ? (Tt & Rt & Ct) Hl2']; subst. constructor; [split; [exact G|]; split; congruence| auto]. }
  destruct Hlike as (G & R & C & P). cbn [rows cols] in *. split; [exact G|]. split; [congruence|]. split; [congruence|]. now rewrite P.
Qed.

(** ** Products of matrices without 1 x 1 blocks always go through *)
Lemma mul_returns a b : tidy a -> tidy b -> cols a = rows b -> exists e, mul a b = Some e /\ rows e = rows a /\ cols e = cols b /\ (tidy e \/ is_zero e = true).
Proof.
  intros Ta Tb Hf. unfold mul. rewrite (tidy_scalar a Ta), (tidy_scalar b Tb). cbn [negb]. rewrite !andb_true_r.
  destruct (is_zero a || is_zero b) eqn:Ez; [eexists; split; [reflexivity|]; auto|].
  destruct (is_identity a) eqn:Ia.
  - destruct a as [n r c| | |]; try discriminate. cbn in Ia, Ta, Hf. apply String.eqb_eq in Ia. exists b. split; [reflexivity|]. cbn [rows]. split; [rewrite <- Hf; symmetry; tauto|]. auto.
  - destruct (is_identity b) eqn:Ib.
    + destruct b as [n r c| | |]; try discriminate. cbn in Ib, Tb, Hf. apply String.eqb_eq in Ib. exists a. split; [reflexivity|]. split; [reflexivity|]. cbn [cols]. split; [rewrite Hf; tauto|]. auto.
    + destruct (mkMult a b) as [e|] eqn:Em.
      * exists e. destruct (mkMult_tidy a b e Ta Tb Em) as (T & R & C & _). auto.
      * exfalso. unfold mkMult, bind in Em. rewrite (tidy_scalar a Ta), (tidy_scalar b Tb), Hf, dim_eqb_refl in Em.
        destruct (parts_mult_tidy a Ta) as (A1 & A2 & A3 & A4). destruct (parts_mult_tidy b Tb) as (B1 & B2 & B3 & B4).
        assert (HF : Forall tidy (parts_mult a ++ parts_mult b)) by (apply Forall_app; split; [eapply Forall_impl; [|exact A1]| eapply Forall_impl; [|exact B1]]; cbn; tauto).
        rewrite (tidy_matrices _ HF) in Em.
        assert (Hp : path (rows a) (parts_mult a ++ parts_mult b) (cols b)) by (apply (path_app _ _ _ (cols a)); [exact A2| now rewrite Hf]).
        destruct (parts_mult a ++ parts_mult b)%list as [| t l] eqn:El; [apply (f_equal (@List.length ex)) in El; rewrite app_length in El; cbn in El; lia|].
        destruct (path_ends (rows a) (t :: l) (cols b) t Hp ltac:(discriminate)) as [E1 E2]. cbn [hd] in E1. rewrite E1, E2, !dim_eqb_refl in Em. discriminate.
Qed.
Lemma add_returns a b : rows a = rows b -> cols a = cols b -> exists e, add a b = Some e.
Proof.
  intros Hr Hc. unfold add, mkAdd. assert (Hs : same_shape a b = true) by (unfold same_shape; rewrite Hr, Hc; now rewrite !dim_eqb_refl). rewrite Hs. cbn [negb].
  destruct (is_zero a); [eauto|]. destruct (is_zero b); eauto.
Qed.
Lemma accumulate_returns r c : forall ks xs ys acc, rows acc = r -> cols acc = c ->
  Forall2 (fun k x => tidy x /\ rows x = r /\ cols x = k) ks xs -> Forall2 (fun k y => tidy y /\ rows y = k /\ cols y = c) ks ys -> exists e, accumulate acc xs ys = Some e.
Proof.
  induction ks as [| k ks IH]; intros xs ys acc Hr Hc Hx Hy; inversion Hx as [| ? x ? xs' (Tx & Rx & Cx) Hx']; subst; inversion Hy as [| ? y ? ys' (Ty & Ry & Cy) Hy']; subst; cbn [accumulate].
  - eauto.
  - destruct (mul_returns x y Tx Ty ltac:(congruence)) as (p & Ep & Rp & Cp & _). rewrite Ep. cbn [bind].
    destruct (add_returns acc p ltac:(congruence) ltac:(congruence)) as (q & Eq). rewrite Eq. cbn [bind].
    unfold add in Eq. destruct (same_shape acc p) eqn:Es; cbn [negb] in Eq; [|discriminate]. apply same_shape_eq in Es as [S1 S2].
    assert (Hq : rows q = rows acc /\ cols q = cols acc).
    { destruct (is_zero acc); [injection Eq as <-; split; congruence|]. destruct (is_zero p); [injection Eq as <-; auto|].
      unfold mkAdd in Eq. destruct (same_shape acc p); [|discriminate]. injection Eq as <-. auto. }
    apply (IH xs' ys' q); [tauto| tauto| assumption| assumption].
Qed.
Lemma mapo_returns {A B} (f : A -> option B) l : Forall (fun x => exists y, f x = Some y) l -> exists l', mapo f l = Some l'.
Proof. induction 1 as [| x l (y & Hy) Hl (l' & IH)]; cbn [mapo]; [eauto|]. rewrite Hy, IH. cbn [bind]. eauto. Qed.
Lemma bmul_returns rs ks cs a b : ks <> [] -> tall rs ks a -> tall ks cs b -> exists m, bmul a b = Some m.
Proof.
  intros Hk Ha Hb. unfold bmul. apply mapo_returns. rewrite Forall_forall. intros row Hrow. apply mapo_returns. rewrite Forall_forall. intros c Hc.
  assert (Lb : List.length b = List.length ks) by (symmetry; now apply Forall2_len in Hb).
  assert (Hw : (match b with [] => 0 | r :: _ => List.length r end = List.length cs)%nat).
  { destruct Hb as [| k row0 ks' b' Hrow0 Hb']; [now destruct Hk|]. symmetry. now apply Forall2_len in Hrow0. }
  rewrite Hw in Hc. apply in_seq in Hc.
  assert (Hr : exists r, Forall2 (fun k x => tidy x /\ rows x = r /\ cols x = k) ks row).
  { clear - Ha Hrow. induction Ha as [| r row0 rs a Hr0 Ha IH]; [destruct Hrow|]. destruct Hrow as [<-|Hrow]; eauto. }
  destruct Hr as [r Hr].
  assert (Hcol : Forall2 (fun k y => tidy y /\ rows y = k /\ cols y = nth c cs (Num 1)) ks (column b c)).
  { apply (Forall2_of_nth _ _ _ (Num 1) (Const "0" (Num 1) (Num 1))); [unfold column; now rewrite map_length|]. intros k Hk'. rewrite column_nth by congruence.
    unfold block. pose proof (Forall2_nth _ _ _ Hb k (Num 1) [] Hk') as Hkr. cbn beta in Hkr. apply (Forall2_nth _ _ _ Hkr c (Num 1) (Const "0" (Num 1) (Num 1))). lia. }
  destruct row as [| x row]; [inversion Hr; subst ks; now destruct Hk|]. destruct (column b c) as [| y col]; [inversion Hcol; subst ks; now destruct Hk|].
  apply (accumulate_returns r (nth c cs (Num 1)) ks (x :: row) (y :: col)); [| |exact Hr| exact Hcol]; cbn [rows cols].
  - inversion Hr; subst. tauto.
  - inversion Hcol; subst. tauto.
Qed.
