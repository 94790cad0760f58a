(** Block matrices: sums, products and transposes mean the dense ones. *)
From Coq Require Import String List Arith Bool Reals Lia Lra.
From Verif Require Import LinSpec LinProofs SymModel SymSpec.
Import ListNotations.
Local Open Scope R_scope.

Section Ind.
  Variable P : ex -> Prop.
  Hypothesis Hc : forall n r c, P (Const n r c).
  Hypothesis Ht : forall b, P b -> P (Trans b).
  Hypothesis Hm : forall r c m l, Forall P l -> P (Mult r c m l).
  Hypothesis Ha : forall r c l, Forall P l -> P (Add r c l).
  Fixpoint ex_ind' (e : ex) : P e :=
    match e with
    | Const n r c => Hc n r c
    | Trans b => Ht b (ex_ind' b)
    | Mult r c m l => Hm r c m l ((fix all l : Forall P l := match l with [] => Forall_nil P | t :: k => Forall_cons t (ex_ind' t) (all k) end) l)
    | Add r c l => Ha r c l ((fix all l : Forall P l := match l with [] => Forall_nil P | t :: k => Forall_cons t (ex_ind' t) (all k) end) l)
    end.
End Ind.

Lemma dim_eqb_eq a b : dim_eqb a b = true <-> a = b.
Proof.
  destruct a, b; cbn; split; intros H; try discriminate H.
  - apply Nat.eqb_eq in H. now subst.
  - injection H as ->. apply Nat.eqb_refl.
  - apply andb_prop in H as [H1 H2]. apply String.eqb_eq in H1. apply Nat.eqb_eq in H2. now subst.
  - injection H as -> ->. now rewrite String.eqb_refl, Nat.eqb_refl.
Qed.
Lemma dim_eqb_refl a : dim_eqb a a = true.
Proof. now apply dim_eqb_eq. Qed.
Lemma one_eq d : one d = true <-> d = Num 1.
Proof. apply dim_eqb_eq. Qed.
Lemma scalar_shape e : is_scalar e = true -> rows e = Num 1 /\ cols e = Num 1.
Proof. intros H. apply andb_prop in H as [H1 H2]. split; now apply one_eq. Qed.
Lemma same_shape_eq a b : same_shape a b = true -> rows a = rows b /\ cols a = cols b.
Proof. intros H. apply andb_prop in H as [H1 H2]. split; now apply dim_eqb_eq. Qed.

(** ** The folds inside [eval] and [typed] *)
Section Env.
Variable E : env.
Fixpoint scale (l : list ex) : R := match l with [] => 1 | t :: r => (if is_scalar t then eval E t 0%nat 0%nat else 1) * scale r end.
Fixpoint chain (l : list ex) : lmat := match l with [] => lid | t :: r => if is_scalar t then chain r else lmm (sz E (cols t)) (eval E t) (chain r) end.
Fixpoint added (l : list ex) (i j : nat) : R := match l with [] => 0 | t :: r => eval E t i j + added r i j end.
Lemma eval_mult r c m l i j : eval E (Mult r c m l) i j = scale l * chain l i j.
Proof. reflexivity. Qed.
Lemma eval_add r c l i j : eval E (Add r c l) i j = added l i j.
Proof. cbn [eval]. induction l as [| t l IH]; [reflexivity|]. cbn [added]. now rewrite <- IH. Qed.

Lemma scale_app a b : scale (a ++ b) = scale a * scale b.
Proof. induction a as [| t a IH]; cbn [scale app]; [ring|]. rewrite IH. ring. Qed.
Lemma added_app a b i j : added (a ++ b) i j = added a i j + added b i j.
Proof. induction a as [| t a IH]; cbn [added app]; [ring|]. rewrite IH. ring. Qed.
Lemma chain_app a : forall r b k i j, path r (matrices a) k -> (i < sz E r)%nat ->
  chain (a ++ b) i j = lmm (sz E k) (chain a) (chain b) i j.
Proof.
  induction a as [| t a IH]; intros r b k i j Hp Hi; cbn [app chain].
  - cbn in Hp. subst k. symmetry. apply (lmm_id_l (sz E r) (S j)); lia.
  - unfold matrices in Hp. cbn [filter] in Hp. fold (matrices a) in Hp.
    destruct (is_scalar t); cbn [negb] in Hp.
    + exact (IH r b k i j Hp Hi).
    + cbn [path] in Hp. destruct Hp as [Hr Hp].
      rewrite lmm_assoc. unfold lmm at 1 3. apply sum_ext. intros x Hx. f_equal. exact (IH (cols t) b k x j Hp Hx).
Qed.
Lemma chain_scalars a b : matrices b = [] -> chain (a ++ b) = chain a.
Proof.
  intros Hb. induction a as [| t a IH]; cbn [app chain].
  - clear - Hb. induction b as [| t b IH]; [reflexivity|]. unfold matrices in Hb. cbn [filter] in Hb. cbn [chain].
    destruct (is_scalar t); cbn [negb] in Hb; [exact (IH Hb)| discriminate].
  - now rewrite IH.
Qed.

Lemma typed_mult r c m l : typed (Mult r c m l) <-> Forall typed l /\ matrices l <> [] /\ path r (matrices l) c.
Proof.
  cbn [typed].
  assert (H : (fix all l := match l with [] => True | t :: k => typed t /\ all k end) l <-> Forall typed l).
  { induction l as [| t l IH]; split; intros H; auto. - destruct H. constructor; auto; now apply IH.
    - inversion H; subst. split; auto. now apply IH. }
  rewrite H. tauto.
Qed.
Lemma typed_add r c l : typed (Add r c l) <-> Forall (fun t => typed t /\ rows t = r /\ cols t = c) l.
Proof.
  cbn [typed]. induction l as [| t l IH]; split; intros H; auto. - destruct H. constructor; auto; now apply IH.
  - inversion H; subst. split; auto. now apply IH.
Qed.
Lemma matrices_app a b : matrices (a ++ b) = (matrices a ++ matrices b)%list.
Proof. apply filter_app. Qed.
Lemma path_app a : forall r b k c, path r a k -> path k b c -> path r (a ++ b) c.
Proof.
  induction a as [| t a IH]; intros r b k c Ha Hb; cbn [app path] in *.
  - now subst.
  - destruct Ha. split; auto. eapply IH; eauto.
Qed.

(** ** One block times another *)
Definition product (a b : ex) : lmat :=
  if is_scalar a then fun i j => eval E a 0%nat 0%nat * eval E b i j
  else if is_scalar b then fun i j => eval E b 0%nat 0%nat * eval E a i j
  else lmm (sz E (cols a)) (eval E a) (eval E b).

Lemma parts_typed e : typed e -> Forall typed (parts_mult e).
Proof. destruct e; intros H; try (constructor; auto; fail). now apply typed_mult in H. Qed.
(** The parts of a block: a lone 1 x 1 factor, or factors that fit from the block's rows to its columns *)
Lemma parts_cases e : typed e ->
  (is_scalar e = true /\ parts_mult e = [e] /\ matrices (parts_mult e) = []) \/
  (matrices (parts_mult e) <> [] /\ path (rows e) (matrices (parts_mult e)) (cols e)).
Proof.
  intros H.
  assert (Hn : parts_mult e = [e] -> (is_scalar e = true /\ parts_mult e = [e] /\ matrices (parts_mult e) = []) \/
     (matrices (parts_mult e) <> [] /\ path (rows e) (matrices (parts_mult e)) (cols e))).
  { intros Hp. rewrite Hp. unfold matrices. cbn [filter]. destruct (is_scalar e); cbn [negb]; [left; auto| right]. split; [discriminate|]. split; reflexivity. }
  destruct e; try (apply Hn; reflexivity). right. apply typed_mult in H. cbn. tauto.
Qed.
Lemma parts_value e i j : typed e -> matrices (parts_mult e) <> [] -> (i < sz E (rows e))%nat -> (j < sz E (cols e))%nat ->
  scale (parts_mult e) * chain (parts_mult e) i j = eval E e i j.
Proof.
  intros Ht Hm Hi Hj.
  assert (Hn : parts_mult e = [e] -> scale (parts_mult e) * chain (parts_mult e) i j = eval E e i j).
  { intros Hp. rewrite Hp in *. unfold matrices in Hm. cbn [filter] in Hm. cbn [scale chain].
    destruct (is_scalar e); cbn [negb] in Hm; [now destruct Hm|].
    rewrite (lmm_id_r _ (S i) _ i j) by lia. ring. }
  destruct e; try (apply Hn; reflexivity). reflexivity.
Qed.

Lemma last_matrices_cols l d : matrices l <> [] -> forall r c, path r (matrices l) c ->
  is_scalar (List.last l d) = false -> cols (List.last l d) = c.
Proof.
  induction l as [| t l IH]; intros Hm r c Hp Hl; [now destruct Hm|].
  destruct l as [| u l].
  - cbn [List.last] in *. unfold matrices in Hp. cbn [filter] in Hp. rewrite Hl in Hp. cbn in Hp. tauto.
  - change (List.last (t :: u :: l) d) with (List.last (u :: l) d) in *.
    assert (Hne : matrices (u :: l) <> []).
    { clear - Hl. revert u Hl. induction l as [| v l IH]; intros u Hl.
      - cbn in Hl. unfold matrices. cbn [filter]. rewrite Hl. discriminate.
      - change (List.last (u :: v :: l) d) with (List.last (v :: l) d) in Hl. unfold matrices. cbn [filter].
        destruct (is_scalar u); cbn [negb]; [exact (IH v Hl)| discriminate]. }
    unfold matrices in Hp. cbn [filter] in Hp. destruct (is_scalar t); cbn [negb] in Hp.
    + exact (IH Hne r c Hp Hl).
    + cbn [path] in Hp. exact (IH Hne _ c (proj2 Hp) Hl).
Qed.

Lemma last_app_ne (a b : list ex) d : b <> [] -> List.last (a ++ b) d = List.last b d.
Proof.
  intros Hb. induction a as [| t a IH]; [reflexivity|]. cbn [app]. rewrite <- IH.
  destruct (a ++ b)%list eqn:El; [|reflexivity]. destruct a; [subst; now destruct Hb| discriminate].
Qed.
Lemma parts_ne e : typed e -> parts_mult e <> [].
Proof. intros H. destruct e; try discriminate. apply typed_mult in H as (_ & Hm & _). cbn. intros ->. now apply Hm. Qed.

Lemma path_ext r r' l c c' : path r l c -> r = r' -> c = c' -> path r' l c'.
Proof. now intros H <- <-. Qed.

Lemma mkMult_ok a b e : typed a -> typed b -> mkMult a b = Some e ->
  typed e /\ rows e = (if is_scalar a then rows b else rows a) /\ cols e = (if is_scalar b then cols a else cols b) /\
  lmeq (sz E (rows e)) (sz E (cols e)) (eval E e) (product a b).
Proof.
  intros Ha Hb He. unfold mkMult, bind in He.
  set (pa := parts_mult a) in *. set (pb := parts_mult b) in *.
  pose proof (parts_typed a Ha) as Ta. pose proof (parts_typed b Hb) as Tb.
  pose proof (parts_cases a Ha) as Ca. pose proof (parts_cases b Hb) as Cb.
  pose proof (parts_ne a Ha) as Na. pose proof (parts_ne b Hb) as Nb.
  assert (Tab : Forall typed (pa ++ pb)) by (apply Forall_app; auto).
  fold pa in Ta, Ca, Na. fold pb in Tb, Cb, Nb.
  destruct (matrices (pa ++ pb)) as [| t0 rest] eqn:Em.
  { destruct (is_scalar a); [discriminate|]. destruct (is_scalar b); [discriminate|]. now destruct (dim_eqb (cols a) (rows b)). }
  rewrite matrices_app in Em.
  unfold product.
  destruct (is_scalar a) eqn:Sa.
  - (* a is 1 x 1 *)
    destruct (dim_eqb (rows b) (rows t0) && dim_eqb (cols b) (cols (List.last (pa ++ pb) t0))) eqn:Ec; [|discriminate].
    injection He as <-. apply andb_prop in Ec as [Ec1 Ec2]. apply dim_eqb_eq in Ec1, Ec2.
    destruct (scalar_shape a Sa) as [Ra1 Ca1].
    destruct Ca as [(_ & Pa & Ma)| [Ma Pa]].
    + rewrite Ma in Em. cbn [app] in Em.
      destruct Cb as [(_ & _ & Mb)| [Mb Pb]]; [now rewrite Mb in Em|].
      split; [|split; [|split]].
      * apply typed_mult. rewrite matrices_app, Ma. cbn [app]. auto.
      * reflexivity.
      * cbn [cols]. destruct (is_scalar b) eqn:Sb; [|reflexivity]. destruct (scalar_shape b Sb) as [_ Cb1]. congruence.
      * intros i j Hi Hj. cbn [rows cols] in Hi, Hj. rewrite eval_mult, Pa, scale_app. cbn [app chain scale]. rewrite Sa.
        rewrite <- (parts_value b i j Hb Mb Hi Hj). fold pb. ring.
    + (* a product that is 1 x 1 *)
      assert (Rb1 : rows b = Num 1).
      { destruct (matrices pa) as [| u ma] eqn:Eu; [now destruct Ma|]. cbn [app] in Em. injection Em as -> _. cbn [path] in Pa. rewrite Ec1. rewrite (proj1 Pa). exact Ra1. }
      assert (Hcols : cols b = (if is_scalar b then cols a else cols b)).
      { destruct (is_scalar b) eqn:Sb; [|reflexivity]. destruct (scalar_shape b Sb) as [_ Cb1]. congruence. }
      assert (Hpath : path (rows b) (matrices (pa ++ pb)) (cols b)).
      { rewrite matrices_app. destruct Cb as [(Sb & _ & Mb)| [Mb Pb]].
        - rewrite Mb, app_nil_r. destruct (scalar_shape b Sb) as [_ Cb1]. apply (path_ext _ _ _ _ _ Pa); congruence.
        - apply (path_app _ _ _ (rows b)); [apply (path_ext _ _ _ _ _ Pa); congruence | exact Pb]. }
      split; [|split; [|split]].
      * apply typed_mult. split; [exact Tab|]. split; [|exact Hpath]. rewrite matrices_app, Em. discriminate.
      * reflexivity.
      * exact Hcols.
      * intros i j Hi Hj. cbn [rows cols] in Hi, Hj. rewrite eval_mult, scale_app.
        assert (Hi0 : i = O) by (rewrite Rb1 in Hi; cbn in Hi; lia). subst i.
        assert (Ea : scale pa * chain pa 0%nat 0%nat = eval E a 0%nat 0%nat).
        { apply (parts_value a 0 0 Ha Ma); [rewrite Ra1| rewrite Ca1]; cbn; lia. }
        destruct Cb as [(Sb & Pb & Mb)| [Mb Pb]].
        -- rewrite (chain_scalars pa pb Mb). rewrite Pb. cbn [scale]. rewrite Sb. destruct (scalar_shape b Sb) as [_ Cb1]. rewrite Cb1 in Hj. cbn in Hj.
           assert (j = O) by lia. subst j. rewrite <- Ea. ring.
        -- rewrite (chain_app pa (Num 1) pb (Num 1)); [| apply (path_ext _ _ _ _ _ Pa); congruence | cbn; lia].
           unfold lmm. cbn [sz sum]. rewrite <- (parts_value b 0 j Hb Mb Hi Hj), <- Ea. fold pb. ring.
  - destruct Ca as [(Sa' & _)| [Ma Pa]]; [congruence|].
    destruct (is_scalar b) eqn:Sb.
    + destruct (dim_eqb (rows a) (rows t0) && dim_eqb (cols a) (cols (List.last (pa ++ pb) t0))) eqn:Ec; [|discriminate].
      injection He as <-. apply andb_prop in Ec as [Ec1 Ec2]. apply dim_eqb_eq in Ec1, Ec2.
      destruct (scalar_shape b Sb) as [Rb1 Cb1].
      destruct Cb as [(_ & Pb & Mb)| [Mb Pb]].
      * split; [|split; [|split]].
        -- apply typed_mult. rewrite matrices_app, Mb, app_nil_r. auto.
        -- reflexivity.
        -- reflexivity.
        -- intros i j Hi Hj. cbn [rows cols] in Hi, Hj. rewrite eval_mult, (chain_scalars pa pb Mb), scale_app, Pb. cbn [scale]. rewrite Sb.
           rewrite <- (parts_value a i j Ha Ma Hi Hj). fold pa. ring.
      * assert (Ca1 : cols a = Num 1).
        { rewrite (last_app_ne pa pb t0 Nb) in Ec2. destruct (is_scalar (List.last pb t0)) eqn:Sl.
          - destruct (scalar_shape _ Sl) as [_ Hl]. congruence.
          - rewrite (last_matrices_cols pb t0 Mb _ _ Pb Sl) in Ec2. congruence. }
        split; [|split; [|split]].
        -- apply typed_mult. split; [exact Tab|]. rewrite matrices_app. split; [rewrite Em; discriminate|].
           apply (path_app _ _ _ (cols a)); [exact Pa|]. apply (path_ext _ _ _ _ _ Pb); congruence.
        -- reflexivity.
        -- reflexivity.
        -- intros i j Hi Hj. cbn [rows cols] in Hi, Hj. rewrite eval_mult, scale_app.
           rewrite (chain_app pa (rows a) pb (cols a) i j Pa Hi). unfold lmm. rewrite Ca1. cbn [sz sum].
           rewrite Ca1 in Hj. cbn in Hj. assert (j = O) by lia. subst j.
           assert (Eb : scale pb * chain pb 0%nat 0%nat = eval E b 0%nat 0%nat).
           { apply (parts_value b 0 0 Hb Mb); [rewrite Rb1| rewrite Cb1]; cbn; lia. }
           assert (Hj0 : (0 < sz E (cols a))%nat) by (rewrite Ca1; cbn; lia).
           rewrite <- (parts_value a i 0 Ha Ma Hi Hj0), <- Eb. fold pa. ring.
    + destruct Cb as [(Sb' & _)| [Mb Pb]]; [congruence|].
      destruct (dim_eqb (cols a) (rows b)) eqn:Ed; [|discriminate]. apply dim_eqb_eq in Ed.
      destruct (dim_eqb (rows a) (rows t0) && dim_eqb (cols b) (cols (List.last (pa ++ pb) t0))); [|discriminate].
      injection He as <-. split; [|split; [|split]].
      * apply typed_mult. split; [exact Tab|]. rewrite matrices_app. split; [rewrite Em; discriminate|].
        apply (path_app _ _ _ (cols a)); [exact Pa|]. now rewrite Ed.
      * reflexivity.
      * reflexivity.
      * intros i j Hi Hj. cbn [rows cols] in Hi, Hj. rewrite eval_mult, scale_app, (chain_app pa (rows a) pb (cols a) i j Pa Hi).
        unfold lmm. rewrite <- sum_scal. apply sum_ext. intros x Hx.
        rewrite <- (parts_value a i x Ha Ma Hi Hx). rewrite Ed in Hx. rewrite <- (parts_value b x j Hb Mb Hx Hj). fold pa pb. ring.
Qed.

Lemma zero_name : named E "0" = fun _ _ => 0. Proof. reflexivity. Qed.
Lemma is_zero_value a : is_zero a = true -> forall i j, eval E a i j = 0.
Proof. destruct a; try discriminate. cbn. intros H i j. unfold named. now rewrite H. Qed.
Lemma is_identity_value a : is_identity a = true -> typed a -> eval E a = lid /\ rows a = cols a.
Proof.
  destruct a; try discriminate. cbn. intros H Ht. apply String.eqb_eq in H. subst name. split; [reflexivity| auto].
Qed.

(** Blocks that fit: multiplying them means multiplying their matrices *)
Lemma mul_ok a b e : typed a -> typed b -> (is_scalar a = true \/ is_scalar b = true \/ cols a = rows b) -> mul a b = Some e ->
  typed e /\ rows e = (if is_scalar a then rows b else rows a) /\ cols e = (if is_scalar b then cols a else cols b) /\
  lmeq (sz E (rows e)) (sz E (cols e)) (eval E e) (product a b).
Proof.
  intros Ha Hb Hf He. unfold mul in He.
  destruct (is_zero a || is_zero b) eqn:Ez.
  - injection He as <-. split; [intros Hn; discriminate Hn|]. split; [reflexivity|]. split; [reflexivity|].
    intros i j _ _. cbn [eval]. rewrite zero_name. unfold product, lmm.
    apply orb_prop in Ez as [Ez|Ez]; pose proof (is_zero_value _ Ez) as Hz.
    + destruct (is_scalar a); [rewrite Hz; ring|]. destruct (is_scalar b); [rewrite Hz; ring|]. symmetry. apply sum_zero. intros k _. rewrite Hz. ring.
    + destruct (is_scalar a); [rewrite Hz; ring|]. destruct (is_scalar b); [rewrite Hz; ring|]. symmetry. apply sum_zero. intros k _. rewrite Hz. ring.
  - destruct (is_identity a && negb (is_scalar b)) eqn:Ei.
    + apply andb_prop in Ei as [Ei Sb]. apply negb_true_iff in Sb. injection He as <-.
      destruct (is_identity_value a Ei Ha) as [Va Ra]. unfold product. rewrite Sb, Va.
      split; [exact Hb|]. destruct (is_scalar a) eqn:Sa.
      * split; [reflexivity|]. split; [reflexivity|]. intros i j _ _. rewrite lid_same. ring.
      * destruct Hf as [Hf|[Hf|Hf]]; try discriminate; try congruence. split; [congruence|]. split; [reflexivity|].
        intros i j Hi Hj. rewrite Hf. symmetry. now apply (lmm_id_l (sz E (rows b)) (sz E (cols b))).
    + destruct (is_identity b && negb (is_scalar a)) eqn:Ej.
      * apply andb_prop in Ej as [Ej Sa]. apply negb_true_iff in Sa. injection He as <-.
        destruct (is_identity_value b Ej Hb) as [Vb Rb]. unfold product. rewrite Sa, Vb.
        split; [exact Ha|]. destruct (is_scalar b) eqn:Sb.
        -- split; [reflexivity|]. split; [reflexivity|]. intros i j _ _. rewrite lid_same. ring.
        -- destruct Hf as [Hf|[Hf|Hf]]; try discriminate; try congruence. split; [reflexivity|]. split; [congruence|].
           intros i j Hi Hj. symmetry. now apply (lmm_id_r (sz E (cols a)) (sz E (rows a))).
      * now apply mkMult_ok.
Qed.
(** With fitting sizes the product is the matrix product, 1 x 1 blocks included *)
Lemma product_lmm a b : cols a = rows b ->
  lmeq (sz E (rows a)) (sz E (cols b)) (product a b) (lmm (sz E (cols a)) (eval E a) (eval E b)).
Proof.
  intros Hf i j Hi Hj. unfold product. destruct (is_scalar a) eqn:Sa.
  - destruct (scalar_shape a Sa) as [Ra Ca]. rewrite Ra in Hi. cbn in Hi. assert (i = O) by lia. subst i.
    unfold lmm. rewrite Ca. cbn [sz sum]. ring.
  - destruct (is_scalar b) eqn:Sb; [|reflexivity].
    destruct (scalar_shape b Sb) as [Rb Cb]. rewrite Cb in Hj. cbn in Hj. assert (j = O) by lia. subst j.
    unfold lmm. rewrite Hf, Rb. cbn [sz sum]. ring.
Qed.
Lemma mul_fits a b e : typed a -> typed b -> cols a = rows b -> mul a b = Some e ->
  typed e /\ rows e = rows a /\ cols e = cols b /\
  lmeq (sz E (rows a)) (sz E (cols b)) (eval E e) (lmm (sz E (cols a)) (eval E a) (eval E b)).
Proof.
  intros Ha Hb Hf He. destruct (mul_ok a b e Ha Hb (or_intror (or_intror Hf)) He) as (Te & Re & Ce & Ve).
  assert (Re' : rows e = rows a). { rewrite Re. destruct (is_scalar a) eqn:Sa; [|reflexivity]. destruct (scalar_shape a Sa). congruence. }
  assert (Ce' : cols e = cols b). { rewrite Ce. destruct (is_scalar b) eqn:Sb; [|reflexivity]. destruct (scalar_shape b Sb). congruence. }
  split; [exact Te|]. split; [exact Re'|]. split; [exact Ce'|].
  rewrite Re', Ce' in Ve. apply (lmeq_trans _ _ _ _ _ Ve). now apply product_lmm.
Qed.

Lemma parts_add_ok e : typed e -> Forall (fun t => typed t /\ rows t = rows e /\ cols t = cols e) (parts_add e).
Proof. destruct e; intros H; try (constructor; auto; fail). now apply typed_add in H. Qed.
Lemma parts_added e i j : added (parts_add e) i j = eval E e i j.
Proof. destruct e; cbn [parts_add]; try (cbn [added]; ring). symmetry. apply eval_add. Qed.
Lemma mkAdd_ok a b e : typed a -> typed b -> mkAdd a b = Some e ->
  typed e /\ rows e = rows a /\ cols e = cols a /\ rows b = rows a /\ cols b = cols a /\ forall i j, eval E e i j = eval E a i j + eval E b i j.
Proof.
  unfold mkAdd. intros Ha Hb He. destruct (same_shape a b) eqn:Es; [|discriminate]. injection He as <-.
  apply same_shape_eq in Es as [Er Ec]. split.
  - apply typed_add. apply Forall_app. split; [exact (parts_add_ok a Ha)|]. rewrite Er, Ec. exact (parts_add_ok b Hb).
  - repeat (split; [auto|]). intros i j. rewrite eval_add, added_app, !parts_added. reflexivity.
Qed.
Lemma add_ok a b e : typed a -> typed b -> add a b = Some e ->
  typed e /\ rows e = rows a /\ cols e = cols a /\ forall i j, eval E e i j = eval E a i j + eval E b i j.
Proof.
  unfold add. intros Ha Hb He. destruct (same_shape a b) eqn:Es; cbn [negb] in He; [|discriminate].
  apply same_shape_eq in Es as [Er Ec]. destruct (is_zero a) eqn:Za.
  - injection He as <-. repeat (split; [auto|]). intros i j. rewrite (is_zero_value a Za). ring.
  - destruct (is_zero b) eqn:Zb.
    + injection He as <-. repeat (split; [auto|]). intros i j. rewrite (is_zero_value b Zb). ring.
    + destruct (mkAdd_ok a b e Ha Hb He) as (H1 & H2 & H3 & _ & _ & H4). auto.
Qed.
Lemma transpose_ok a : typed a -> typed (transpose a) /\ rows (transpose a) = cols a /\ cols (transpose a) = rows a /\
  lmeq (sz E (cols a)) (sz E (rows a)) (eval E (transpose a)) (ltr (eval E a)).
Proof.
  intros Ha. unfold transpose. destruct (is_zero a) eqn:Za.
  - split; [intros H; discriminate H|]. repeat (split; [reflexivity|]). intros i j _ _. unfold ltr. rewrite (is_zero_value a Za). reflexivity.
  - destruct (is_identity a) eqn:Ia; cbn [orb].
    + destruct (is_identity_value a Ia Ha) as [Va Ra]. repeat (split; [auto|]). intros i j _ _. rewrite Va. unfold ltr, lid. now rewrite Nat.eqb_sym.
    + destruct (is_scalar a) eqn:Sa.
      * destruct (scalar_shape a Sa) as [Ra Ca]. repeat (split; [congruence || auto|]). intros i j Hi Hj. rewrite Ca in Hi. rewrite Ra in Hj. cbn in Hi, Hj.
        assert (i = O) by lia. assert (j = O) by lia. now subst.
      * repeat (split; [auto|]). intros i j _ _. reflexivity.
Qed.

(** ** Block matrices *)
Definition fits (r c : dim) (e : ex) : Prop := typed e /\ rows e = r /\ cols e = c.
Lemma locate_bound ns : forall i, (i < SymSpec.total ns)%nat -> (fst (locate ns i) < List.length ns)%nat /\ (snd (locate ns i) < nth (fst (locate ns i)) ns 0%nat)%nat.
Proof.
  induction ns as [| n ns IH]; intros i Hi; cbn [SymSpec.total fold_right] in Hi; [lia|].
  cbn [locate]. destruct (Nat.ltb_spec i n); cbn [fst snd List.length nth]; [lia|].
  destruct (IH (i - n)%nat) as [H1 H2]; [fold (SymSpec.total ns) in Hi; lia|]. split; [lia| exact H2].
Qed.
Lemma sum_blocks ns : forall (f : nat -> nat -> R),
  sum (SymSpec.total ns) (fun i => f (fst (locate ns i)) (snd (locate ns i))) = sum (List.length ns) (fun k => sum (nth k ns 0%nat) (fun x => f k x)).
Proof.
  induction ns as [| n ns IH]; intros f; [reflexivity|].
  cbn [SymSpec.total fold_right List.length]. fold (SymSpec.total ns). rewrite sum_split, sum_first. cbn [nth]. f_equal.
  - apply sum_ext. intros i Hi. cbn [locate]. rewrite (proj2 (Nat.ltb_lt i n) Hi). reflexivity.
  - rewrite <- (IH (fun k x => f (S k) x)). apply sum_ext. intros i _. cbn [locate].
    rewrite (proj2 (Nat.ltb_ge (n + i) n)) by lia. replace (n + i - n)%nat with i by lia. reflexivity.
Qed.

Lemma Forall2_nth {A B} (P : A -> B -> Prop) la lb : Forall2 P la lb -> forall k da db, (k < List.length la)%nat -> P (nth k la da) (nth k lb db).
Proof. induction 1; intros k da db Hk; [cbn in Hk; lia|]. destruct k; [assumption|]. apply IHForall2. cbn in Hk. lia. Qed.
Lemma Forall2_len {A B} (P : A -> B -> Prop) la lb : Forall2 P la lb -> List.length la = List.length lb.
Proof. induction 1; cbn; congruence. Qed.
Lemma Forall2_of_nth {A B} (P : A -> B -> Prop) la lb da db : List.length la = List.length lb ->
  (forall k, (k < List.length la)%nat -> P (nth k la da) (nth k lb db)) -> Forall2 P la lb.
Proof.
  revert lb. induction la as [| a la IH]; intros [| b lb] Hl Hn; try discriminate; constructor.
  - apply (Hn O). cbn. lia.
  - apply IH; [cbn in Hl; lia|]. intros k Hk. apply (Hn (S k)). cbn. lia.
Qed.
Lemma shaped_block rs cs m r c : shaped rs cs m -> (r < List.length rs)%nat -> (c < List.length cs)%nat ->
  fits (nth r rs (Num 1)) (nth c cs (Num 1)) (block m r c).
Proof.
  intros H Hr Hc. unfold block. pose proof (Forall2_nth _ _ _ H r (Num 1) [] Hr) as H1. cbn beta in H1.
  exact (Forall2_nth _ _ _ H1 c (Num 1) (Const "0" (Num 1) (Num 1)) Hc).
Qed.
Lemma nth_sz l k : nth k (map (sz E) l) 0%nat = match nth_error l k with Some d => sz E d | None => 0%nat end.
Proof. revert k. induction l as [| d l IH]; intros [| k]; cbn; auto. Qed.
Lemma nth_sz' l k : (k < List.length l)%nat -> nth k (map (sz E) l) 0%nat = sz E (nth k l (Num 1)).
Proof. revert k. induction l as [| d l IH]; intros [| k] H; cbn in *; try lia; auto. apply IH. lia. Qed.

Lemma mapo_nth {A B} (f : A -> option B) l l' : mapo f l = Some l' -> List.length l' = List.length l /\
  forall k d d', (k < List.length l)%nat -> f (nth k l d) = Some (nth k l' d').
Proof.
  revert l'. induction l as [| x l IH]; intros l' H; cbn [mapo] in H.
  - injection H as <-. split; [reflexivity|]. intros k d d' Hk. cbn in Hk. lia.
  - unfold bind in H. destruct (f x) as [y|] eqn:Ey; [|discriminate]. destruct (mapo f l) as [ys|]; [|discriminate]. injection H as <-.
    destruct (IH ys eq_refl) as [Hl Hn]. split; [cbn; congruence|]. intros [| k] d d' Hk; [exact Ey|]. apply Hn. cbn in Hk. lia.
Qed.
Lemma map2o_nth f a b l : map2o f a b = Some l -> List.length a = List.length b -> List.length l = List.length a /\
  forall k d d1 d2, (k < List.length a)%nat -> f (nth k a d1) (nth k b d2) = Some (nth k l d).
Proof.
  revert b l. induction a as [| x a IH]; intros [| y b] l H Hl; cbn [map2o] in H; try discriminate.
  - injection H as <-. split; [reflexivity|]. intros k d d1 d2 Hk. cbn in Hk. lia.
  - unfold bind in H. destruct (f x y) as [z|] eqn:Ez; [|discriminate]. destruct (map2o f a b) as [zs|] eqn:Em; [|discriminate]. injection H as <-.
    cbn in Hl. destruct (IH b zs Em ltac:(lia)) as [H1 H2]. split; [cbn; congruence|].
    intros [| k] d d1 d2 Hk; [exact Ez|]. apply H2. cbn in Hk. lia.
Qed.
Lemma badd_nth a b l : badd a b = Some l -> List.length a = List.length b -> List.length l = List.length a /\
  forall k, (k < List.length a)%nat -> map2o add (nth k a []) (nth k b []) = Some (nth k l []).
Proof.
  revert b l. induction a as [| x a IH]; intros [| y b] l H Hl; cbn [badd] in H; try discriminate.
  - injection H as <-. split; [reflexivity|]. intros k Hk. cbn in Hk. lia.
  - unfold bind in H. destruct (map2o add x y) as [z|] eqn:Ez; [|discriminate]. destruct (badd a b) as [zs|] eqn:Em; [|discriminate]. injection H as <-.
    cbn in Hl. destruct (IH b zs Em ltac:(lia)) as [H1 H2]. split; [cbn; congruence|].
    intros [| k] Hk; [exact Ez|]. apply H2. cbn in Hk. lia.
Qed.
Lemma shaped_of rs cs m : List.length m = List.length rs ->
  (forall r, (r < List.length rs)%nat -> List.length (nth r m []) = List.length cs) ->
  (forall r c, (r < List.length rs)%nat -> (c < List.length cs)%nat -> fits (nth r rs (Num 1)) (nth c cs (Num 1)) (block m r c)) ->
  shaped rs cs m.
Proof.
  intros Hl Hw Hf. apply (Forall2_of_nth _ _ _ (Num 1) []); [auto|]. intros r Hr.
  apply (Forall2_of_nth _ _ _ (Num 1) (Const "0" (Num 1) (Num 1))); [symmetry; now apply Hw|]. intros c Hc. now apply Hf.
Qed.
Lemma shaped_row rs cs m r : shaped rs cs m -> (r < List.length rs)%nat -> List.length (nth r m []) = List.length cs.
Proof. intros H Hr. pose proof (Forall2_nth _ _ _ H r (Num 1) [] Hr) as H1. symmetry. now apply Forall2_len in H1. Qed.

Lemma dense_ext rs cs m (F : lmat) :
  (forall r c i j, (r < List.length rs)%nat -> (c < List.length cs)%nat -> (i < sz E (nth r rs (Num 1)))%nat -> (j < sz E (nth c cs (Num 1)))%nat ->
     forall i' j', locate (map (sz E) rs) i' = (r, i) -> locate (map (sz E) cs) j' = (c, j) -> eval E (block m r c) i j = F i' j') ->
  lmeq (SymSpec.total (map (sz E) rs)) (SymSpec.total (map (sz E) cs)) (dense E rs cs m) F.
Proof.
  intros H i j Hi Hj. unfold dense. destruct (locate_bound _ _ Hi) as [H1 H2]. destruct (locate_bound _ _ Hj) as [H3 H4].
  rewrite map_length in H1, H3. rewrite nth_sz' in H2, H4 by assumption.
  apply H; auto; apply surjective_pairing.
Qed.

Lemma badd_ok rs cs a b m : shaped rs cs a -> shaped rs cs b -> badd a b = Some m ->
  shaped rs cs m /\
  lmeq (SymSpec.total (map (sz E) rs)) (SymSpec.total (map (sz E) cs)) (dense E rs cs m) (lmadd (dense E rs cs a) (dense E rs cs b)).
Proof.
  intros Ha Hb Hm. pose proof (Forall2_len _ _ _ Ha) as La. pose proof (Forall2_len _ _ _ Hb) as Lb.
  destruct (badd_nth a b m Hm ltac:(congruence)) as [Lm Nm].
  assert (Hblock : forall r c, (r < List.length rs)%nat -> (c < List.length cs)%nat -> add (block a r c) (block b r c) = Some (block m r c)).
  { intros r c Hr Hc. unfold block. assert (Hr' : (r < List.length a)%nat) by congruence. specialize (Nm r Hr').
    apply map2o_nth in Nm; [|now rewrite !(shaped_row rs cs)]. apply (proj2 Nm). now rewrite (shaped_row rs cs). }
  split.
  - apply shaped_of; [congruence| |].
    + intros r Hr. assert (Hr' : (r < List.length a)%nat) by congruence. specialize (Nm r Hr').
      apply map2o_nth in Nm; [|now rewrite !(shaped_row rs cs)]. rewrite (proj1 Nm). now apply (shaped_row rs cs).
    + intros r c Hr Hc. destruct (shaped_block rs cs a r c Ha Hr Hc) as (T1 & R1 & C1). destruct (shaped_block rs cs b r c Hb Hr Hc) as (T2 & R2 & C2).
      destruct (add_ok _ _ _ T1 T2 (Hblock r c Hr Hc)) as (T & R & C & _). split; [exact T|]. split; congruence.
  - apply dense_ext. intros r c i j Hr Hc Hi Hj i' j' Ei Ej.
    destruct (shaped_block rs cs a r c Ha Hr Hc) as (T1 & R1 & C1). destruct (shaped_block rs cs b r c Hb Hr Hc) as (T2 & R2 & C2).
    destruct (add_ok _ _ _ T1 T2 (Hblock r c Hr Hc)) as (_ & _ & _ & V). rewrite V. unfold lmadd, dense. now rewrite Ei, Ej.
Qed.

Lemma bscale_ok s rs cs a m : typed s -> is_scalar s = true -> shaped rs cs a -> bscale s a = Some m ->
  shaped rs cs m /\
  lmeq (SymSpec.total (map (sz E) rs)) (SymSpec.total (map (sz E) cs)) (dense E rs cs m) (fun i j => eval E s 0%nat 0%nat * dense E rs cs a i j).
Proof.
  intros Ts Ss Ha Hm. pose proof (Forall2_len _ _ _ Ha) as La. unfold bscale in Hm.
  destruct (mapo_nth _ _ _ Hm) as [Lm Nm].
  assert (Hrow : forall r, (r < List.length rs)%nat -> List.length (nth r m []) = List.length cs).
  { intros r Hr. assert (Hr' : (r < List.length a)%nat) by congruence. pose proof (Nm r [] [] Hr') as Nr. apply mapo_nth in Nr as [Nr _]. rewrite Nr. now apply (shaped_row rs cs). }
  assert (Hblock : forall r c, (r < List.length rs)%nat -> (c < List.length cs)%nat -> mul s (block a r c) = Some (block m r c)).
  { intros r c Hr Hc. unfold block. assert (Hr' : (r < List.length a)%nat) by congruence. pose proof (Nm r [] [] Hr') as Nr.
    apply mapo_nth in Nr as [_ Nr]. apply Nr. now rewrite (shaped_row rs cs). }
  assert (Hb : forall r c, (r < List.length rs)%nat -> (c < List.length cs)%nat ->
    fits (nth r rs (Num 1)) (nth c cs (Num 1)) (block m r c) /\
    lmeq (sz E (nth r rs (Num 1))) (sz E (nth c cs (Num 1))) (eval E (block m r c)) (fun i j => eval E s 0%nat 0%nat * eval E (block a r c) i j)).
  { intros r c Hr Hc. destruct (shaped_block rs cs a r c Ha Hr Hc) as (T1 & R1 & C1).
    destruct (mul_ok s _ _ Ts T1 (or_introl Ss) (Hblock r c Hr Hc)) as (T & R & C & V). rewrite Ss in R. destruct (scalar_shape s Ss) as [_ Cs].
    assert (C' : cols (block m r c) = cols (block a r c)). { rewrite C. destruct (is_scalar (block a r c)) eqn:Sb; [|reflexivity]. destruct (scalar_shape _ Sb). congruence. }
    split; [split; [exact T|]; split; congruence|]. rewrite R, C', R1, C1 in V. unfold product in V. now rewrite Ss in V. }
  split.
  - apply shaped_of; [congruence| exact Hrow|]. intros r c Hr Hc. now apply Hb.
  - apply dense_ext. intros r c i j Hr Hc Hi Hj i' j' Ei Ej. rewrite (proj2 (Hb r c Hr Hc) i j Hi Hj). unfold dense. now rewrite Ei, Ej.
Qed.

Lemma accumulate_ok r c : forall ks xs ys acc e, fits r c acc ->
  Forall2 (fun k x => fits r k x) ks xs -> Forall2 (fun k y => fits k c y) ks ys -> accumulate acc xs ys = Some e ->
  fits r c e /\ forall i j, (i < sz E r)%nat -> (j < sz E c)%nat ->
    eval E e i j = eval E acc i j +
      sum (List.length ks) (fun k => lmm (sz E (nth k ks (Num 1))) (eval E (nth k xs (Const "0" (Num 1) (Num 1)))) (eval E (nth k ys (Const "0" (Num 1) (Num 1)))) i j).
Proof.
  induction ks as [| k ks IH]; intros xs ys acc e Hacc Hx Hy He; inversion Hx as [| ? y ? l' H1 H2]; subst; inversion Hy as [| ? y0 ? l'0 H3 H5]; subst; cbn [accumulate] in He.
  - injection He as <-. split; [exact Hacc|]. intros i j _ _. cbn [List.length sum]. ring.
  - unfold bind in He. destruct (mul y y0) as [p|] eqn:Ep; [|discriminate]. destruct (add acc p) as [acc'|] eqn:Ea; [|discriminate].
    destruct H1 as (Tx & Rx & Cx). destruct H3 as (Ty & Ry & Cy).
    destruct (mul_fits y y0 p Tx Ty ltac:(congruence) Ep) as (Tp & Rp & Cp & Vp).
    destruct Hacc as (Tacc & Racc & Cacc). destruct (add_ok acc p acc' Tacc Tp Ea) as (Ta & Ra & Ca & Va).
    destruct (IH l' l'0 acc' e ltac:(split; [exact Ta|]; split; congruence) H2 H5 He) as [Hf Hv]. split; [exact Hf|].
    intros i j Hi Hj. rewrite (Hv i j Hi Hj), Va, Vp by congruence. cbn [List.length]. rewrite sum_first. cbn [nth]. rewrite Cx. ring.
Qed.
Lemma column_nth b c k : (k < List.length b)%nat -> nth k (column b c) (Const "0" (Num 1) (Num 1)) = block b k c.
Proof.
  intros H. unfold column. rewrite nth_indep with (d' := (fun row => nth c row (Const "0" (Num 1) (Num 1))) []) by now rewrite map_length.
  rewrite (map_nth (fun row => nth c row (Const "0" (Num 1) (Num 1)))). reflexivity.
Qed.
Lemma bmul_ok rs ks cs a b m : ks <> [] -> shaped rs ks a -> shaped ks cs b -> bmul a b = Some m ->
  shaped rs cs m /\
  lmeq (SymSpec.total (map (sz E) rs)) (SymSpec.total (map (sz E) cs)) (dense E rs cs m)
    (lmm (SymSpec.total (map (sz E) ks)) (dense E rs ks a) (dense E ks cs b)).
Proof.
  intros Hk Ha Hb Hm. pose proof (Forall2_len _ _ _ Ha) as La. pose proof (Forall2_len _ _ _ Hb) as Lb. unfold bmul in Hm.
  assert (Hw : (match b with [] => 0 | r :: _ => List.length r end = List.length cs)%nat).
  { destruct b as [| r0 b]; [destruct ks; [now destruct Hk|discriminate]|]. pose proof (shaped_row ks cs (r0 :: b) 0 Hb ltac:(rewrite Lb; cbn; lia)) as H. exact H. }
  rewrite Hw in Hm.
  destruct (mapo_nth _ _ _ Hm) as [Lm Nm].
  assert (Hrow : forall r, (r < List.length rs)%nat -> List.length (nth r m []) = List.length cs).
  { intros r Hr. assert (Hr' : (r < List.length a)%nat) by congruence. pose proof (Nm r [] [] Hr') as Nr. apply mapo_nth in Nr as [Nr _]. rewrite Nr. apply seq_length. }
  assert (Hb' : forall r c, (r < List.length rs)%nat -> (c < List.length cs)%nat ->
    fits (nth r rs (Num 1)) (nth c cs (Num 1)) (block m r c) /\
    lmeq (sz E (nth r rs (Num 1))) (sz E (nth c cs (Num 1))) (eval E (block m r c))
      (fun i j => sum (List.length ks) (fun k => lmm (sz E (nth k ks (Num 1))) (eval E (block a r k)) (eval E (block b k c)) i j))).
  { intros r c Hr Hc. assert (Hr' : (r < List.length a)%nat) by congruence. pose proof (Nm r [] [] Hr') as Nr. apply mapo_nth in Nr as [_ Nr].
    rewrite seq_length in Nr. specialize (Nr c 0%nat (Const "0" (Num 1) (Num 1)) Hc). rewrite seq_nth in Nr by assumption. cbn [plus] in Nr.
    fold (block m r c) in Nr.
    pose proof (Forall2_nth _ _ _ Ha r (Num 1) [] Hr) as Hra. cbn beta in Hra.
    assert (Hcb : Forall2 (fun k y => fits k (nth c cs (Num 1)) y) ks (column b c)).
    { apply (Forall2_of_nth _ _ _ (Num 1) (Const "0" (Num 1) (Num 1))); [unfold column; now rewrite map_length|].
      intros k Hk'. rewrite column_nth by congruence. now apply shaped_block. }
    remember (nth r a []) as row eqn:Erow. remember (column b c) as col eqn:Ecol.
    destruct row as [| x row]; [inversion Hra; subst ks; now destruct Hk|]. destruct col as [| y col]; [inversion Hcb; subst ks; now destruct Hk|].
    assert (Hacc : fits (nth r rs (Num 1)) (nth c cs (Num 1)) (Const "0" (rows x) (cols y))).
    { split; [intros H; discriminate H|]. inversion Hra; subst. inversion Hcb; subst. cbn [rows cols]. unfold fits in *. intuition congruence. }
    destruct (accumulate_ok _ _ ks (x :: row) (y :: col) _ _ Hacc Hra Hcb Nr) as [Hf Hv]. split; [exact Hf|].
    intros i j Hi Hj. rewrite (Hv i j Hi Hj). cbn [eval]. rewrite zero_name, Rplus_0_l. apply sum_ext. intros k Hk'.
    rewrite Erow, Ecol. rewrite column_nth by congruence. reflexivity. }
  split.
  - apply shaped_of; [congruence| exact Hrow|]. intros r c Hr Hc. now apply Hb'.
  - apply dense_ext. intros r c i j Hr Hc Hi Hj i' j' Ei Ej. rewrite (proj2 (Hb' r c Hr Hc) i j Hi Hj).
    unfold lmm at 2. unfold dense. rewrite Ei, Ej. cbn [fst snd].
    rewrite (sum_blocks (map (sz E) ks) (fun k x => eval E (block a r k) i x * eval E (block b k c) x j)).
    rewrite map_length. apply sum_ext. intros k Hk'. rewrite nth_sz' by assumption. reflexivity.
Qed.

Lemma btr_ok rs cs a : cs <> [] -> rs <> [] -> shaped rs cs a ->
  shaped cs rs (btr a) /\
  lmeq (SymSpec.total (map (sz E) cs)) (SymSpec.total (map (sz E) rs)) (dense E cs rs (btr a)) (ltr (dense E rs cs a)).
Proof.
  intros Hc Hr Ha. pose proof (Forall2_len _ _ _ Ha) as La.
  assert (Hw : (match a with [] => 0 | r :: _ => List.length r end = List.length cs)%nat).
  { destruct a as [| r0 a]; [destruct rs; [now destruct Hr|discriminate]|]. pose proof (shaped_row rs cs (r0 :: a) 0 Ha ltac:(rewrite La; cbn; lia)) as H. exact H. }
  unfold btr. rewrite Hw.
  set (m := map (fun c => map transpose (column a c)) (seq 0 (List.length cs))).
  assert (Hnth : forall c, (c < List.length cs)%nat -> nth c m [] = map transpose (column a c)).
  { intros c Hc'. unfold m. rewrite nth_indep with (d' := (fun c => map transpose (column a c)) 0%nat) by (rewrite map_length, seq_length; exact Hc').
    rewrite (map_nth (fun c => map transpose (column a c))), seq_nth by exact Hc'. reflexivity. }
  assert (Hblock : forall c r, (c < List.length cs)%nat -> (r < List.length rs)%nat -> block m c r = transpose (block a r c)).
  { intros c r Hc' Hr'. unfold block at 1. rewrite (Hnth c Hc').
    assert (Hl : (r < List.length (column a c))%nat) by (unfold column; rewrite map_length; congruence).
    rewrite nth_indep with (d' := transpose (Const "0" (Num 1) (Num 1))) by now rewrite map_length.
    rewrite map_nth, column_nth by congruence. reflexivity. }
  assert (Lm : List.length m = List.length cs) by (unfold m; rewrite map_length; apply seq_length).
  clearbody m.
  assert (Hb : forall c r, (c < List.length cs)%nat -> (r < List.length rs)%nat ->
    fits (nth c cs (Num 1)) (nth r rs (Num 1)) (block m c r) /\
    lmeq (sz E (nth c cs (Num 1))) (sz E (nth r rs (Num 1))) (eval E (block m c r)) (ltr (eval E (block a r c)))).
  { intros c r Hc' Hr'. rewrite (Hblock c r Hc' Hr'). destruct (shaped_block rs cs a r c Ha Hr' Hc') as (T1 & R1 & C1).
    destruct (transpose_ok _ T1) as (T & R & C & V). rewrite R1, C1 in *. split; [split; auto| exact V]. }
  split.
  - apply shaped_of; [exact Lm| |].
    + intros c Hc'. rewrite (Hnth c Hc'), map_length. unfold column. rewrite map_length. congruence.
    + intros c r Hc' Hr'. now apply Hb.
  - apply dense_ext. intros c r i j Hc' Hr' Hi Hj i' j' Ei Ej. rewrite (proj2 (Hb c r Hc' Hr') i j Hi Hj). unfold ltr, dense. now rewrite Ei, Ej.
Qed.
(** ** The generator's formulas *)
Notation tot l := (SymSpec.total (map (sz E) l)).
Lemma bidentity_block ds r c : (r < List.length ds)%nat -> (c < List.length ds)%nat ->
  block (bidentity ds) r c = if Nat.eqb r c then Const "I" (nth r ds (Num 1)) (nth r ds (Num 1)) else Const "0" (nth r ds (Num 1)) (nth c ds (Num 1)).
Proof.
  intros Hr Hc. unfold block, bidentity.
  set (g := fun r => map (fun c => if Nat.eqb r c then Const "I" (nth r ds (Num 1)) (nth r ds (Num 1)) else Const "0" (nth r ds (Num 1)) (nth c ds (Num 1))) (seq 0 (List.length ds))).
  rewrite nth_indep with (l := map g _) (d' := g 0%nat) by (rewrite map_length, seq_length; exact Hr).
  rewrite (map_nth g), seq_nth by exact Hr. cbn [plus]. unfold g. clear g.
  set (h := fun c => if Nat.eqb r c then Const "I" (nth r ds (Num 1)) (nth r ds (Num 1)) else Const "0" (nth r ds (Num 1)) (nth c ds (Num 1))).
  rewrite nth_indep with (l := map h _) (d' := h 0%nat) by (rewrite map_length, seq_length; exact Hc).
  rewrite (map_nth h), seq_nth by exact Hc. reflexivity.
Qed.
Lemma locate_inj ns : forall i j, (i < SymSpec.total ns)%nat -> (j < SymSpec.total ns)%nat -> locate ns i = locate ns j -> i = j.
Proof.
  induction ns as [| n ns IH]; intros i j Hi Hj He; cbn [SymSpec.total fold_right] in Hi, Hj; [lia|]. fold (SymSpec.total ns) in Hi, Hj. cbn [locate] in He.
  destruct (Nat.ltb_spec i n), (Nat.ltb_spec j n); try (injection He; intros; lia); try discriminate He.
  injection He as H1 H2. specialize (IH (i - n)%nat (j - n)%nat ltac:(lia) ltac:(lia)). assert (i - n = j - n)%nat by (apply IH; now rewrite (surjective_pairing (locate ns (i - n))), H1, H2, <- surjective_pairing). lia.
Qed.
Lemma bidentity_ok ds : shaped ds ds (bidentity ds) /\ lmeq (tot ds) (tot ds) (dense E ds ds (bidentity ds)) lid.
Proof.
  split.
  - apply shaped_of; [unfold bidentity; now rewrite map_length, seq_length| |].
    + intros r Hr. unfold bidentity.
      set (g := fun r => map (fun c => if Nat.eqb r c then Const "I" (nth r ds (Num 1)) (nth r ds (Num 1)) else Const "0" (nth r ds (Num 1)) (nth c ds (Num 1))) (seq 0 (List.length ds))).
      rewrite nth_indep with (d' := g 0%nat) by (rewrite map_length, seq_length; exact Hr).
      rewrite (map_nth g), seq_nth by exact Hr. unfold g. now rewrite map_length, seq_length.
    + intros r c Hr Hc. rewrite bidentity_block by assumption. destruct (Nat.eqb_spec r c) as [->|Hn]; (split; [cbn; intros; (reflexivity || discriminate)|]; split; reflexivity).
  - intros i j Hi Hj. unfold dense. destruct (locate_bound _ _ Hi) as [H1 H2]. destruct (locate_bound _ _ Hj) as [H3 H4].
    rewrite map_length in H1, H3. rewrite bidentity_block by assumption.
    destruct (Nat.eqb_spec (fst (locate (map (sz E) ds) i)) (fst (locate (map (sz E) ds) j))) as [He|Hn].
    + cbn [eval]. unfold named. cbn. unfold lid.
      destruct (Nat.eqb_spec (snd (locate (map (sz E) ds) i)) (snd (locate (map (sz E) ds) j))) as [Hs|Hs], (Nat.eqb_spec i j) as [Hij|Hij]; auto.
      * exfalso. apply Hij. apply (locate_inj (map (sz E) ds)); auto. rewrite (surjective_pairing (locate _ i)), He, Hs. now rewrite <- surjective_pairing.
      * exfalso. apply Hs. now rewrite Hij.
    + cbn [eval]. rewrite zero_name. symmetry. apply lid_diff. congruence.
Qed.
Lemma abar_ok ds a dt half m : ds <> [] -> typed dt -> is_scalar dt = true -> typed half -> is_scalar half = true -> shaped ds ds a ->
  abar (bidentity ds) a dt half = Some m ->
  shaped ds ds m /\ lmeq (tot ds) (tot ds) (dense E ds ds m) (abar_dense (tot ds) (dense E ds ds a) (eval E dt 0%nat 0%nat) (eval E half 0%nat 0%nat)).
Proof.
  intros Hds Td Sd Th Sh Ha H. unfold abar, bind in H.
  destruct (bscale dt a) as [a1|] eqn:E1; [|discriminate]. destruct (badd (bidentity ds) a1) as [s|] eqn:E2; [|discriminate].
  destruct (bmul a a) as [aa|] eqn:E3; [|discriminate]. destruct (bscale dt aa) as [x1|] eqn:E4; [|discriminate].
  destruct (bscale dt x1) as [x2|] eqn:E5; [|discriminate]. destruct (bscale half x2) as [x3|] eqn:E6; [|discriminate].
  destruct (bidentity_ok ds) as [Si Vi].
  destruct (bscale_ok dt ds ds a a1 Td Sd Ha E1) as [S1 V1]. destruct (badd_ok ds ds _ a1 s Si S1 E2) as [S2 V2].
  destruct (bmul_ok ds ds ds a a aa Hds Ha Ha E3) as [S3 V3]. destruct (bscale_ok dt ds ds aa x1 Td Sd S3 E4) as [S4 V4].
  destruct (bscale_ok dt ds ds x1 x2 Td Sd S4 E5) as [S5 V5]. destruct (bscale_ok half ds ds x2 x3 Th Sh S5 E6) as [S6 V6].
  destruct (badd_ok ds ds s x3 m S2 S6 H) as [S7 V7]. split; [exact S7|].
  intros i j Hi Hj. rewrite (V7 i j Hi Hj). unfold lmadd. rewrite (V2 i j Hi Hj), (V6 i j Hi Hj), (V5 i j Hi Hj), (V4 i j Hi Hj), (V3 i j Hi Hj). unfold lmadd.
  rewrite (Vi i j Hi Hj), (V1 i j Hi Hj). reflexivity.
Qed.
Lemma bbar_ok ds us a b dt half m : ds <> [] -> typed dt -> is_scalar dt = true -> typed half -> is_scalar half = true -> shaped ds ds a -> shaped ds us b ->
  bbar (bidentity ds) a b dt half = Some m ->
  shaped ds us m /\ lmeq (tot ds) (tot us) (dense E ds us m) (bbar_dense (tot ds) (dense E ds ds a) (dense E ds us b) (eval E dt 0%nat 0%nat) (eval E half 0%nat 0%nat)).
Proof.
  intros Hds Td Sd Th Sh Ha Hb H. unfold bbar, bind in H.
  destruct (bscale dt a) as [a1|] eqn:E1; [|discriminate]. destruct (bscale half a1) as [a2|] eqn:E2; [|discriminate].
  destruct (badd (bidentity ds) a2) as [s|] eqn:E3; [|discriminate]. destruct (bmul s b) as [p|] eqn:E4; [|discriminate].
  destruct (bidentity_ok ds) as [Si Vi].
  destruct (bscale_ok dt ds ds a a1 Td Sd Ha E1) as [S1 V1]. destruct (bscale_ok half ds ds a1 a2 Th Sh S1 E2) as [S2 V2].
  destruct (badd_ok ds ds _ a2 s Si S2 E3) as [S3 V3]. destruct (bmul_ok ds ds us s b p Hds S3 Hb E4) as [S4 V4].
  destruct (bscale_ok dt ds us p m Td Sd S4 H) as [S5 V5]. split; [exact S5|].
  intros i j Hi Hj. rewrite (V5 i j Hi Hj), (V4 i j Hi Hj). unfold bbar_dense. f_equal. unfold lmm. apply sum_ext. intros k Hk. f_equal.
  rewrite (V3 i k Hi Hk). unfold lmadd. now rewrite (Vi i k Hi Hk), (V2 i k Hi Hk), (V1 i k Hi Hk).
Qed.
Lemma pout_ok ds us a p b q m : ds <> [] -> us <> [] -> shaped ds ds a -> shaped ds ds p -> shaped ds us b -> shaped us us q -> pout a p b q = Some m ->
  shaped ds ds m /\ lmeq (tot ds) (tot ds) (dense E ds ds m) (pout_dense (tot ds) (tot us) (dense E ds ds a) (dense E ds ds p) (dense E ds us b) (dense E us us q)).
Proof.
  intros Hds Hus Ha Hp Hb Hq H. unfold pout, bind in H.
  destruct (bmul a p) as [x|] eqn:E1; [|discriminate]. destruct (bmul x (btr a)) as [y|] eqn:E2; [|discriminate].
  destruct (bmul b q) as [u|] eqn:E3; [|discriminate]. destruct (bmul u (btr b)) as [v|] eqn:E4; [|discriminate].
  destruct (btr_ok ds ds a Hds Hds Ha) as [Sa Va]. destruct (btr_ok ds us b Hus Hds Hb) as [Sb Vb].
  destruct (bmul_ok ds ds ds a p x Hds Ha Hp E1) as [S1 V1]. destruct (bmul_ok ds ds ds x (btr a) y Hds S1 Sa E2) as [S2 V2].
  destruct (bmul_ok ds us us b q u Hus Hb Hq E3) as [S3 V3]. destruct (bmul_ok ds us ds u (btr b) v Hus S3 Sb E4) as [S4 V4].
  destruct (badd_ok ds ds y v m S2 S4 H) as [S5 V5]. split; [exact S5|].
  intros i j Hi Hj. rewrite (V5 i j Hi Hj). unfold lmadd, pout_dense. rewrite (V2 i j Hi Hj), (V4 i j Hi Hj). f_equal.
  - apply (lmm_ext (tot ds) _ _ _ _ (tot ds) (tot ds)); auto.
  - apply (lmm_ext (tot us) _ _ _ _ (tot ds) (tot ds)); auto.
Qed.
End Env.
