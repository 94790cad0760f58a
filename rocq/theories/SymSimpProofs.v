(** Simplification keeps the products an expression expands to. *)
From Coq Require Import String Ascii List Arith Bool Reals Lia Lra Permutation.
From Verif Require Import LinSpec LinProofs SymModel SymSpec SymProofs.
Import ListNotations.
Local Open Scope nat_scope.

(** ** Lists of products *)
Notation mon := monomials.
Fixpoint mons (l : list ex) : list (list ex) := match l with [] => [[]] | t :: r => lprod (mon t) (mons r) end.
Lemma mon_mult r c m l : mon (Mult r c m l) = mons l.
Proof. reflexivity. Qed.
Lemma mon_add r c l : mon (Add r c l) = flat_map mon l.
Proof. cbn [monomials]. induction l as [| t l IH]; [reflexivity|]. cbn [flat_map]. now rewrite <- IH. Qed.

Lemma lprod_in a b m : In m (lprod a b) <-> exists x y, In x a /\ In y b /\ m = (x ++ y)%list.
Proof.
  unfold lprod. rewrite in_flat_map. split.
  - intros (x & Hx & Hm). apply in_map_iff in Hm as (y & <- & Hy). eauto.
  - intros (x & y & Hx & Hy & ->). exists x. split; [auto|]. apply in_map_iff. eauto.
Qed.
Lemma lprod_app_l a b c : lprod (a ++ b) c = (lprod a c ++ lprod b c)%list.
Proof. unfold lprod. apply flat_map_app. Qed.
Lemma lprod_app_r a b c : Permutation (lprod a (b ++ c)) (lprod a b ++ lprod a c).
Proof.
  unfold lprod. induction a as [| x a IH]; cbn [flat_map]; [constructor|].
  rewrite map_app, IH. rewrite <- !app_assoc. apply Permutation_app_head. rewrite !app_assoc. apply Permutation_app_tail. apply Permutation_app_comm.
Qed.
Lemma lprod_map x b c : lprod (map (fun y => (x ++ y)%list) b) c = map (fun y => (x ++ y)%list) (lprod b c).
Proof.
  unfold lprod. induction b as [| y b IH]; cbn [map flat_map]; [reflexivity|]. rewrite IH, map_app, map_map. f_equal.
  apply map_ext. intros z. now rewrite app_assoc.
Qed.
Lemma lprod_assoc a b c : lprod (lprod a b) c = lprod a (lprod b c).
Proof.
  unfold lprod at 2 3. induction a as [| x a IH]; cbn [flat_map]; [reflexivity|].
  rewrite lprod_app_l, IH, lprod_map. reflexivity.
Qed.
Lemma lprod_one_r a : lprod a [[]] = a.
Proof. unfold lprod. induction a as [| x a IH]; [reflexivity|]. cbn [flat_map]. rewrite IH. cbn [map app]. now rewrite app_nil_r. Qed.
Lemma lprod_one_l a : lprod [[]] a = a.
Proof. unfold lprod. cbn [flat_map]. rewrite app_nil_r. rewrite map_ext with (g := fun y => y) by reflexivity. apply map_id. Qed.
Lemma mons_app a b : mons (a ++ b) = lprod (mons a) (mons b).
Proof. induction a as [| t a IH]; cbn [app mons]; [symmetry; apply lprod_one_l|]. now rewrite IH, lprod_assoc. Qed.
Lemma lprod_perm a a' b b' : Permutation a a' -> Permutation b b' -> Permutation (lprod a b) (lprod a' b').
Proof.
  intros Ha Hb. transitivity (lprod a' b).
  - unfold lprod. now apply Permutation_flat_map.
  - clear Ha a. unfold lprod. induction a' as [| x a IH]; cbn [flat_map]; [constructor|]. apply Permutation_app; [|exact IH]. now apply Permutation_map.
Qed.
Lemma lprod_ne a b : a <> [] -> b <> [] -> lprod a b <> [].
Proof. destruct a, b; intros H1 H2; try congruence. cbn. discriminate. Qed.
Lemma NoDup_app_l {A} (a b : list A) : NoDup (a ++ b) -> NoDup a.
Proof. induction a as [| x a IH]; intros H; [constructor|]. inversion H; subst. constructor; [|auto]. intros Hx. apply H2. apply in_or_app. auto. Qed.
Lemma NoDup_app_r {A} (a b : list A) : NoDup (a ++ b) -> NoDup b.
Proof. induction a as [| x a IH]; intros H; [exact H|]. inversion H; subst. auto. Qed.
Lemma NoDup_app_disj {A} (a b : list A) x : NoDup (a ++ b) -> In x a -> In x b -> False.
Proof. induction a as [| y a IH]; intros H Ha Hb; [destruct Ha|]. inversion H; subst. destruct Ha as [->|Ha]; [apply H2; apply in_or_app; auto| auto]. Qed.
Lemma lprod_nodup_l a b : b <> [] -> NoDup (lprod a b) -> NoDup a.
Proof.
  intros Hb. destruct b as [| y b]; [now destruct Hb|]. clear Hb.
  induction a as [| x a IH]; intros H; [constructor|]. unfold lprod in H. cbn [flat_map] in H. fold (lprod a (y :: b)) in H.
  constructor; [|apply IH; now apply NoDup_app_r in H].
  intros Hx. apply (NoDup_app_disj _ _ (x ++ y)%list H); [now left|]. apply lprod_in. exists x, y. cbn. auto.
Qed.
Lemma lprod_nodup_r a b : a <> [] -> NoDup (lprod a b) -> NoDup b.
Proof. destruct a as [| x a]; intros Ha H; [now destruct Ha|]. unfold lprod in H. cbn [flat_map] in H. apply NoDup_app_l in H. now apply NoDup_map_inv in H. Qed.

Definition same_set (a b : list (list ex)) : Prop := forall m, In m a <-> In m b.
Lemma same_set_perm a b : same_set a b -> NoDup a -> NoDup b -> Permutation a b.
Proof. intros H Ha Hb. now apply NoDup_Permutation. Qed.
Lemma same_set_lprod a a' b b' : same_set a a' -> same_set b b' -> same_set (lprod a b) (lprod a' b').
Proof.
  intros Ha Hb m. rewrite !lprod_in. split; intros (x & y & Hx & Hy & Hm); exists x, y; split; try (now apply Ha); split; auto; now apply Hb.
Qed.

(** ** Well-shaped expressions without 1 x 1 blocks *)
Lemma tidy_mult r c m l : tidy (Mult r c m l) <-> Forall (fun t => tidy t /\ is_mult t = false) l /\ 2 <= List.length l /\ path r l c /\ m = false.
Proof.
  cbn [tidy].
  assert (H : (fix all l := match l with [] => True | t :: k => (tidy t /\ is_mult t = false) /\ all k end) l <-> Forall (fun t => tidy t /\ is_mult t = false) l).
  { induction l as [| t l IH]; split; intros H; auto. - destruct H. constructor; auto; now apply IH.
    - inversion H; subst. split; auto. now apply IH. }
  rewrite H. tauto.
Qed.
Definition good (r c : dim) (t : ex) : Prop := tidy t /\ rows t = r /\ cols t = c.
Lemma tidy_add r c l : tidy (Add r c l) <-> Forall (good r c) l /\ l <> [].
Proof.
  cbn [tidy].
  assert (H : (fix all l := match l with [] => True | t :: k => (tidy t /\ rows t = r /\ cols t = c) /\ all k end) l <-> Forall (good r c) l).
  { induction l as [| t l IH].
    - split; intros _; [constructor| exact I].
    - split; intros H; [destruct H; constructor; [assumption| now apply IH]|]. inversion H; subst. split; [assumption| now apply IH]. }
  rewrite H. tauto.
Qed.
Lemma tidy_rows e : tidy e -> one (rows e) = false.
Proof.
  induction e as [n r c| b IH| r c m l IH| r c l IH] using ex_ind'; intros H.
  - cbn in *. tauto.
  - cbn in H. destruct b; try contradiction; cbn; tauto.
  - apply tidy_mult in H as (Hl & Hn & Hp & _). destruct l as [| t l]; [cbn in Hn; lia|]. cbn [path] in Hp. cbn [rows]. rewrite <- (proj1 Hp).
    inversion IH; subst. inversion Hl; subst. tauto.
  - apply tidy_add in H as [Hl Hn]. destruct l as [| t l]; [now destruct Hn|]. inversion IH as [| ? ? IHt _]; subst. inversion Hl as [| ? ? (Ht & Hr & Hc) _]; subst. cbn [rows]. auto.
Qed.
Lemma tidy_scalar e : tidy e -> is_scalar e = false.
Proof. intros H. unfold is_scalar. now rewrite (tidy_rows e H). Qed.
Lemma tidy_matrices l : Forall tidy l -> matrices l = l.
Proof. induction 1 as [| t l Ht Hl IH]; [reflexivity|]. unfold matrices. cbn [filter]. rewrite (tidy_scalar t Ht). cbn [negb]. f_equal. exact IH. Qed.
Lemma tidy_scalars l : Forall tidy l -> scalars l = [].
Proof. induction 1 as [| t l Ht Hl IH]; [reflexivity|]. unfold scalars. cbn [filter]. rewrite (tidy_scalar t Ht). exact IH. Qed.
Lemma tidy_mult_terms r c m l : tidy (Mult r c m l) -> Forall tidy l.
Proof. intros H. apply tidy_mult in H as (H & _). eapply Forall_impl; [|exact H]. cbn. tauto. Qed.
Lemma mons_ne l : Forall (fun t => mon t <> []) l -> mons l <> [].
Proof. induction 1; cbn [mons]; [discriminate|]. now apply lprod_ne. Qed.
Lemma mon_ne e : tidy e -> mon e <> [].
Proof.
  induction e as [n r c| b IH| r c m l IH| r c l IH] using ex_ind'; intros H.
  - cbn [monomials]. destruct (String.eqb n "I"); discriminate.
  - discriminate.
  - rewrite mon_mult. apply mons_ne. apply tidy_mult_terms in H. rewrite Forall_forall in *. auto.
  - rewrite mon_add. apply tidy_add in H as [Hl Hn]. destruct l as [| t l]; [now destruct Hn|]. inversion IH as [| ? ? IHt _]; subst. inversion Hl as [| ? ? (Ht & Hr & Hc) _]; subst.
    cbn [flat_map]. specialize (IHt Ht). destruct (mon t); [now destruct IHt|discriminate].
Qed.

(** ** Printed expressions *)
Fixpoint quiet (s : string) : Prop :=
  match s with EmptyString => True | String c r => c <> "*"%char /\ c <> " "%char /\ c <> "("%char /\ quiet r end.
Lemma quiet_app a b : quiet (a ++ b)%string <-> quiet a /\ quiet b.
Proof. induction a as [| c a IH]; cbn [append quiet]; [tauto|]. rewrite IH. tauto. Qed.
Lemma plain_quiet n : plain_chars n -> quiet n.
Proof. induction n as [| c n IH]; cbn; tauto. Qed.
Definition atom (a : ex) : Prop := match a with Const _ _ _ => True | Trans (Const _ _ _) => True | _ => False end.
Lemma atom_quiet a : atom a -> tidy a -> quiet (repr a).
Proof.
  destruct a as [n r c| [n r c| | |] | |]; try contradiction; intros _ H; cbn in H; cbn [repr].
  - apply plain_quiet. unfold plain in H. tauto.
  - apply quiet_app. split; [apply plain_quiet; unfold plain in H; tauto|]. cbn. repeat split; discriminate.
Qed.
Lemma concat_two sep x y l : String.concat sep (x :: y :: l) = (x ++ sep ++ String.concat sep (y :: l))%string.
Proof. reflexivity. Qed.
Lemma quiet_atom e : tidy e -> quiet (repr e) ->
  exists a, atom a /\ tidy a /\ rows a = rows e /\ cols a = cols e /\ repr a = repr e /\ mon a = mon e.
Proof.
  induction e as [n r c| b IH| r c m l IH| r c l IH] using ex_ind'; intros H Hq.
  - exists (Const n r c). cbn [atom]. auto 6.
  - exists (Trans b). split; [cbn in H; destruct b; try tauto; exact I|]. auto 6.
  - exfalso. apply tidy_mult in H as (_ & Hn & _). destruct l as [| x [| y l]]; cbn in Hn; try lia. cbn [repr map] in Hq.
    rewrite concat_two in Hq. apply quiet_app in Hq as [_ Hq]. apply quiet_app in Hq as [Hq _]. cbn in Hq. tauto.
  - apply tidy_add in H as [Hl Hn]. destruct l as [| x [| y l]]; [now destruct Hn| |].
    + inversion IH as [| ? ? IHt _]; subst. inversion Hl as [| ? ? (Ht & Hr & Hc) _]; subst. cbn [repr map String.concat] in Hq.
      destruct (IHt Ht Hq) as (a & A1 & A2 & A3 & A4 & A5 & A6). exists a. split; [auto|]. split; [auto|]. cbn [rows cols repr map String.concat].
      split; [congruence|]. split; [congruence|]. split; [auto|]. rewrite mon_add. cbn [flat_map]. now rewrite app_nil_r.
    + exfalso. cbn [repr map] in Hq. rewrite concat_two in Hq. apply quiet_app in Hq as [_ Hq]. apply quiet_app in Hq as [Hq _]. cbn in Hq. tauto.
Qed.
Lemma plain_no_dot n m : plain_chars n -> n = (m ++ ".T")%string -> False.
Proof.
  revert m. induction n as [| c n IH]; intros m Hp He; destruct m as [| d m]; cbn in *; try discriminate.
  - injection He as -> _. tauto.
  - injection He as _ He. apply (IH m); tauto.
Qed.
Lemma append_inj a b s : (a ++ s)%string = (b ++ s)%string -> a = b.
Proof.
  revert b. induction a as [| c a IH]; intros [| d b] H; cbn in *; auto.
  - exfalso. assert (L : String.length s = String.length (String d (b ++ s))) by now rewrite <- H. cbn in L.
    assert (L2 : forall x y, String.length (x ++ y)%string = String.length x + String.length y) by (intros x; induction x; intros; cbn; auto).
    rewrite L2 in L. lia.
  - exfalso. assert (L : String.length s = String.length (String c (a ++ s))) by now rewrite H. cbn in L.
    assert (L2 : forall x y, String.length (x ++ y)%string = String.length x + String.length y) by (intros x; induction x; intros; cbn; auto).
    rewrite L2 in L. lia.
  - injection H as -> H. f_equal. auto.
Qed.
Lemma atoms_same a b : atom a -> atom b -> tidy a -> tidy b -> rows a = rows b -> cols a = cols b -> repr a = repr b -> a = b.
Proof.
  destruct a as [n r c| [n r c| | |] | |]; try contradiction; destruct b as [n' r' c'| [n' r' c'| | |] | |]; try contradiction;
    intros _ _ Ta Tb Hr Hc Hn; cbn in *.
  - congruence.
  - exfalso. apply (plain_no_dot n n'); unfold plain in *; tauto.
  - exfalso. apply (plain_no_dot n' n); unfold plain in *; [tauto| auto].
  - apply append_inj in Hn. congruence.
Qed.
Lemma atom_equal a b : atom a -> tidy a -> tidy b -> rows a = rows b -> cols a = cols b -> repr a = repr b -> mon a = mon b.
Proof.
  intros Aa Ta Tb Hr Hc Hn. assert (Hq : quiet (repr b)) by (rewrite <- Hn; now apply atom_quiet).
  destruct (quiet_atom b Tb Hq) as (a' & A1 & A2 & A3 & A4 & A5 & A6). rewrite <- A6. f_equal. apply atoms_same; congruence || auto.
Qed.

(** ** Equality of blocks *)
Lemma isin_true q x l : isin q x l = Some true -> exists t, In t l /\ q t x = Some true.
Proof.
  induction l as [| t l IH]; cbn [isin]; [discriminate|]. unfold bind. destruct (q t x) as [[|]|] eqn:Eq; try discriminate.
  - intros _. exists t. cbn. auto.
  - intros H. destruct (IH H) as (u & Hu & Hq). exists u. cbn. auto.
Qed.
Lemma and_then_true a b : and_then a b = Some true -> a = Some true /\ b = Some true.
Proof. unfold and_then, bind. destruct a as [[|]|]; try discriminate. auto. Qed.
Lemma each_in_true q xs l : each_in q xs l = Some true -> forall x, In x xs -> exists t, In t l /\ q t x = Some true.
Proof.
  induction xs as [| y xs IH]; cbn [each_in]; intros H x Hx; [destruct Hx|]. apply and_then_true in H as [H1 H2].
  destruct Hx as [<-|Hx]; [now apply isin_true| auto].
Qed.
Lemma same_list_true q xs ys : same_list q xs ys = Some true -> Forall2 (fun x y => q x y = Some true) xs ys.
Proof.
  revert ys. induction xs as [| x xs IH]; intros [| y ys]; cbn [same_list]; try discriminate; intros H; [constructor|].
  apply and_then_true in H as [H1 H2]. constructor; auto.
Qed.
Lemma path_ends r l c d : path r l c -> l <> [] -> rows (hd d l) = r /\ cols (List.last l d) = c.
Proof.
  revert r. induction l as [| t l IH]; intros r Hp Hn; [now destruct Hn|]. cbn [path] in Hp. destruct Hp as [Hr Hp]. split; [exact Hr|].
  destruct l as [| u l]; [exact Hp|]. change (List.last (t :: u :: l) d) with (List.last (u :: l) d). now apply (IH (cols t)).
Qed.
Lemma Forall2_ends (P : ex -> ex -> Prop) l m d : Forall2 P l m -> l <> [] -> P (hd d l) (hd d m) /\ P (List.last l d) (List.last m d).
Proof.
  induction 1 as [| x y l m Hxy Hl IH]; intros Hn; [now destruct Hn|]. split; [exact Hxy|].
  destruct Hl as [| x' y' l m Hx Hl]; [exact Hxy|].
  change (P (List.last (x' :: l) d) (List.last (y' :: m) d)). apply IH. discriminate.
Qed.
Lemma eqb_sound fuel : forall a b, tidy a -> tidy b -> eqb fuel a b = Some true ->
  rows a = rows b /\ cols a = cols b /\ same_set (mon a) (mon b).
Proof.
  induction fuel as [| f IH]; intros a b Ta Tb He; [discriminate|]. cbn [eqb] in He.
  assert (Hatom : atom a -> Some (dim_eqb (rows a) (rows b) && dim_eqb (cols a) (cols b) && String.eqb (repr a) (repr b)) = Some true ->
     rows a = rows b /\ cols a = cols b /\ same_set (mon a) (mon b)).
  { intros Aa Hs. injection Hs as Hs. apply andb_prop in Hs as [Hs H3]. apply andb_prop in Hs as [H1 H2].
    apply dim_eqb_eq in H1, H2. apply String.eqb_eq in H3. split; [auto|]. split; [auto|].
    rewrite (atom_equal a b Aa Ta Tb H1 H2 H3). intros m. tauto. }
  destruct a as [n r c| a | r c m l| r c l].
  - apply Hatom; [exact I| exact He].
  - apply Hatom; [cbn in Ta; destruct a; try tauto; exact I| exact He].
  - pose proof Ta as Ta'. apply tidy_mult in Ta' as (Hl & Hn & Hp & ->). destruct b as [| | r' c' m' l' |]; try discriminate.
    destruct (Nat.eqb (List.length l) (List.length l')) eqn:En; [|discriminate]. apply same_list_true in He.
    pose proof (tidy_mult_terms _ _ _ _ Tb) as Hl'.
    assert (H2 : Forall2 (fun x y => rows x = rows y /\ cols x = cols y /\ same_set (mon x) (mon y)) l l').
    { clear - He IH Hl Hl'. induction He as [| x y l l' Hxy Hr IHr]; [constructor|]. inversion Hl; subst. inversion Hl'; subst.
      constructor; [apply IH; tauto| auto]. }
    apply tidy_mult in Tb as (_ & Hn' & Hp' & _). cbn [rows cols].
    assert (Hne : l <> []) by (destruct l; [cbn in Hn; lia| discriminate]).
    assert (Hne' : l' <> []) by (destruct l'; [cbn in Hn'; lia| discriminate]).
    destruct (path_ends r l c (Const "0" r c) Hp Hne) as [E1 E2]. destruct (path_ends r' l' c' (Const "0" r c) Hp' Hne') as [E3 E4].
    destruct (Forall2_ends _ l l' (Const "0" r c) H2 Hne) as [[F1 _] [_ [F2 _]]].
    split; [congruence|]. split; [congruence|]. rewrite !mon_mult. clear - H2.
    induction H2 as [| x y l l' (_ & _ & Hxy) Hr IH]; cbn [mons]; [intros m; tauto|]. now apply same_set_lprod.
  - pose proof Ta as Ta'. apply tidy_add in Ta' as [Hl Hn]. destruct b as [| | | r' c' l']; try discriminate.
    pose proof Tb as Tb'. apply tidy_add in Tb' as [Hl' Hn']. apply and_then_true in He as [H1 H2].
    pose proof (each_in_true _ _ _ H1) as I1. pose proof (each_in_true _ _ _ H2) as I2.
    rewrite Forall_forall in Hl, Hl'. cbn [rows cols].
    assert (J1 : forall x, In x l' -> exists t, In t l /\ rows t = rows x /\ cols t = cols x /\ same_set (mon t) (mon x)).
    { intros x Hx. destruct (I1 x Hx) as (t & Ht & Hq). exists t. split; [auto|]. destruct (Hl t Ht) as [T1 _]. destruct (Hl' x Hx) as [T2 _]. now apply IH. }
    assert (J2 : forall x, In x l -> exists t, In t l' /\ rows t = rows x /\ cols t = cols x /\ same_set (mon t) (mon x)).
    { intros x Hx. destruct (I2 x Hx) as (t & Ht & Hq). exists t. split; [auto|]. destruct (Hl' t Ht) as [T1 _]. destruct (Hl x Hx) as [T2 _]. now apply IH. }
    destruct l' as [| y l']; [now destruct Hn'|]. destruct (J1 y (or_introl eq_refl)) as (t & Ht & R1 & C1 & _).
    destruct (Hl t Ht) as (_ & R2 & C2). destruct (Hl' y (or_introl eq_refl)) as (_ & R3 & C3).
    split; [congruence|]. split; [congruence|]. rewrite !mon_add. intros m. rewrite !in_flat_map. split.
    + intros (x & Hx & Hm). destruct (J2 x Hx) as (u & Hu & _ & _ & Hs). exists u. split; [auto|]. now apply Hs.
    + intros (x & Hx & Hm). destruct (J1 x Hx) as (u & Hu & _ & _ & Hs). exists u. split; [auto|]. now apply Hs.
Qed.

(** ** Building *)
Lemma parts_mult_tidy e : tidy e -> Forall (fun t => tidy t /\ is_mult t = false) (parts_mult e) /\ path (rows e) (parts_mult e) (cols e) /\
  mons (parts_mult e) = mon e /\ 1 <= List.length (parts_mult e).
Proof.
  intros H. destruct e as [n r c| b| r c m l| r c l]; cbn [parts_mult].
  1,2,4: (split; [apply Forall_cons; [split; [exact H| reflexivity]| constructor]|]; split; [split; reflexivity|]; split; [cbn [mons]; apply lprod_one_r| cbn; lia]).
  apply tidy_mult in H as (H1 & H2 & H3 & _). split; [auto|]. split; [exact H3|]. split; [reflexivity| lia].
Qed.
Lemma mkMult_tidy a b e : tidy a -> tidy b -> mkMult a b = Some e ->
  tidy e /\ rows e = rows a /\ cols e = cols b /\ is_mult e = true /\ mon e = lprod (mon a) (mon b).
Proof.
  intros Ta Tb He. unfold mkMult, bind in He. rewrite (tidy_scalar a Ta), (tidy_scalar b Tb) in He.
  destruct (dim_eqb (cols a) (rows b)) eqn:Ed; [|discriminate]. apply dim_eqb_eq in Ed.
  destruct (parts_mult_tidy a Ta) as (A1 & A2 & A3 & A4). destruct (parts_mult_tidy b Tb) as (B1 & B2 & B3 & B4).
  destruct (matrices (parts_mult a ++ parts_mult b)) as [| t0 rest]; [discriminate|].
  destruct (dim_eqb (rows a) (rows t0) && dim_eqb (cols b) (cols (List.last (parts_mult a ++ parts_mult b) t0))); [|discriminate]. injection He as <-.
  split.
  - apply tidy_mult. split; [apply Forall_app; auto|]. split; [rewrite app_length; lia|]. split; [|reflexivity].
    apply (path_app _ _ _ (cols a)); [exact A2| now rewrite Ed].
  - repeat (split; [reflexivity|]). rewrite mon_mult, mons_app. congruence.
Qed.
Lemma parts_add_tidy e : tidy e -> Forall (good (rows e) (cols e)) (parts_add e) /\ parts_add e <> [] /\ flat_map mon (parts_add e) = mon e.
Proof.
  intros H. destruct e as [n r c| b| r c m l| r c l]; cbn [parts_add].
  1,2,3: (split; [apply Forall_cons; [split; [exact H| split; reflexivity]| constructor]|]; split; [discriminate| cbn [flat_map]; apply app_nil_r]).
  rewrite mon_add. apply tidy_add in H. tauto.
Qed.
Lemma mkAdd_tidy a b e : tidy a -> tidy b -> mkAdd a b = Some e ->
  tidy e /\ rows e = rows a /\ cols e = cols a /\ rows b = rows a /\ cols b = cols a /\ is_add e = true /\ mon e = (mon a ++ mon b)%list.
Proof.
  intros Ta Tb He. unfold mkAdd in He. destruct (same_shape a b) eqn:Es; [|discriminate]. injection He as <-. apply same_shape_eq in Es as [Er Ec].
  destruct (parts_add_tidy a Ta) as (A1 & A2 & A3). destruct (parts_add_tidy b Tb) as (B1 & B2 & B3). split.
  - apply tidy_add. split; [apply Forall_app; rewrite <- Er, <- Ec in B1; auto|]. destruct (parts_add a); [now destruct A2| discriminate].
  - repeat (split; [auto|]). rewrite mon_add, flat_map_app. congruence.
Qed.

(** ** factor *)
Lemma nodup_positions (l : list ex) i j t u m : NoDup (flat_map mon l) -> nth_error l i = Some t -> nth_error l j = Some u -> i <> j ->
  In m (mon t) -> In m (mon u) -> False.
Proof.
  revert i j. induction l as [| x l IH]; intros i j Hd Hi Hj Hij Ht Hu; [destruct i; discriminate|]. cbn [flat_map] in Hd.
  destruct i as [| i], j as [| j]; cbn [nth_error] in Hi, Hj.
  - congruence.
  - injection Hi as ->. apply (NoDup_app_disj _ _ m Hd Ht). apply in_flat_map. exists u. split; [eapply nth_error_In; eauto| auto].
  - injection Hj as ->. apply (NoDup_app_disj _ _ m Hd Hu). apply in_flat_map. exists t. split; [eapply nth_error_In; eauto| auto].
  - apply NoDup_app_r in Hd. apply (IH i j Hd Hi Hj); auto.
Qed.
Lemma equal_positions_none fuel t i l0 : tidy t -> Forall tidy l0 -> NoDup (flat_map mon l0) -> nth_error l0 i = Some t ->
  forall l pre marks, l0 = (pre ++ l)%list -> equal_positions fuel t i (List.length pre) l = Some marks -> filter (fun b => b) marks = [].
Proof.
  intros Ht Hl Hd Hi. induction l as [| u l IH]; intros pre marks He Hm; cbn [equal_positions] in Hm; [now injection Hm as <-|].
  unfold bind in Hm. destruct (if Nat.eqb i (List.length pre) then Some false else eqb fuel t u) as [b|] eqn:Eb; [|discriminate].
  destruct (equal_positions fuel t i (S (List.length pre)) l) as [bs|] eqn:Er; [|discriminate]. injection Hm as <-.
  assert (Hrest : filter (fun b => b) bs = []).
  { apply (IH (pre ++ [u])%list bs); [rewrite He, <- app_assoc; reflexivity|]. rewrite app_length. cbn [List.length]. now rewrite Nat.add_1_r. }
  destruct b; [|exact Hrest]. exfalso. destruct (Nat.eqb i (List.length pre)) eqn:Ei; [discriminate|]. apply Nat.eqb_neq in Ei.
  assert (Hu : nth_error l0 (List.length pre) = Some u). { rewrite He, nth_error_app2, Nat.sub_diag by lia. reflexivity. }
  assert (Tu : tidy u). { rewrite Forall_forall in Hl. apply Hl. eapply nth_error_In; eauto. }
  destruct (eqb_sound fuel t u Ht Tu Eb) as (_ & _ & Hs). pose proof (mon_ne t Ht) as Hne. destruct (mon t) as [| m ms] eqn:Em; [now destruct Hne|].
  apply (nodup_positions l0 i (List.length pre) t u m Hd Hi Hu Ei); [rewrite Em; now left| apply Hs; now left].
Qed.
Lemma factor_same fuel : forall k i l l', Forall tidy l -> NoDup (flat_map mon l) -> factor_loop fuel k i l = Some l' -> l' = l.
Proof.
  induction k as [| k IH]; intros i l l' Hl Hd H; cbn [factor_loop] in H; [discriminate|].
  destruct (nth_error l i) as [t|] eqn:Et; [|now injection H as <-]. unfold bind in H.
  destruct (equal_positions fuel t i 0 l) as [marks|] eqn:Em; [|discriminate].
  assert (Ht : tidy t). { rewrite Forall_forall in Hl. apply Hl. eapply nth_error_In; eauto. }
  rewrite (equal_positions_none fuel t i l Ht Hl Hd Et l [] marks eq_refl Em) in H. cbn [List.length Nat.ltb Nat.leb] in H. eauto.
Qed.

(** ** factor_scalars *)
Lemma first_in_nil fuel l : first_in fuel l [] = Some None.
Proof. induction l as [| t l IH]; cbn [first_in isin bind]; [reflexivity| exact IH]. Qed.
Lemma scalars_inner_same fuel again : forall rest pre ti mid ch, tidy ti ->
  scalars_inner fuel again pre ti mid rest ch = Some (Open ti (rev mid ++ rest), ch).
Proof.
  induction rest as [| tj rest IH]; intros pre ti mid ch Hi; cbn [scalars_inner]; [now rewrite app_nil_r|].
  assert (Hc : scalars_inner fuel again pre ti (tj :: mid) rest ch = Some (Open ti (rev mid ++ tj :: rest), ch)).
  { rewrite IH by assumption. cbn [rev]. now rewrite <- app_assoc. }
  destruct ti as [| | r c m l|]; try exact Hc. destruct tj as [| | r' c' m' l'|]; try exact Hc.
  unfold same_scalar_term. rewrite (tidy_scalars l (tidy_mult_terms _ _ _ _ Hi)), first_in_nil. exact Hc.
Qed.
Lemma scalars_outer_same fuel again : forall k l pre ch oc, Forall tidy l -> scalars_outer fuel again k pre l ch = Some oc ->
  match rev pre ++ l with t :: r => oc = (Open t r, ch) | [] => False end%list.
Proof.
  induction k as [| k IH]; intros l pre ch oc Hl H; cbn [scalars_outer] in H; [discriminate|].
  destruct l as [| ti rest].
  - rewrite app_nil_r. destruct (rev pre); [discriminate| now injection H as <-].
  - inversion Hl; subst. rewrite scalars_inner_same in H by assumption. cbn [bind rev app] in H. apply IH in H; [|assumption].
    cbn [rev] in H. rewrite <- app_assoc in H. exact H.
Qed.
Lemma factor_scalars_same fuel r c l e : tidy (Add r c l) -> factor_scalars fuel (Add r c l) = Some e -> e = Add r c l.
Proof.
  intros Ht He. destruct fuel as [| f]; [discriminate|]. cbn [factor_scalars] in He. unfold bind in He.
  destruct (scalars_outer f (factor_scalars f) (S (List.length l)) [] l false) as [oc|] eqn:Eo; [|discriminate].
  apply scalars_outer_same in Eo; [|apply tidy_add in Ht as [Hl _]; eapply Forall_impl; [|exact Hl]; intros t Hg; exact (proj1 Hg)].
  cbn [rev app] in Eo. destruct l as [| t rest]; [destruct Eo|]. subst oc. now injection He as <-.
Qed.

(** ** factor_first_term *)
Lemma path_cons_ne t u l r c : path r (t :: u :: l) c -> cols t = rows u.
Proof. cbn [path]. intuition congruence. Qed.
Lemma strip_first_ok e l f q : tidy e -> is_add e = false -> terms e = Some l -> strip_first_term e = Some (f, q) ->
  (exists tl, l = f :: tl) /\ tidy f /\ rows f = rows e /\ rows q = cols f /\ cols q = cols e /\
  mon e = lprod (mon f) (mon q) /\ (one (cols f) = false -> tidy q) /\ (is_mult e = true -> one (cols f) = false) /\ (is_mult e = false -> f = e).
Proof.
  intros Ht Ha Hl Hs. destruct e as [n r c| b| r c m ll| r c ll]; try discriminate.
  - injection Hl as <-. injection Hs as <- <-. split; [eauto|]. split; [exact Ht|]. cbn [rows cols].
    repeat (split; [reflexivity|]). split; [symmetry; apply lprod_one_r|]. split; [|split; [discriminate| reflexivity]].
    intros Ho. cbn [tidy]. split; [|auto]. split; [discriminate|]. cbn. repeat split; discriminate.
  - injection Hl as <-. pose proof Ht as Ht'. apply tidy_mult in Ht' as (H1 & H2 & H3 & ->). unfold strip_first_term in Hs. cbn [len] in Hs.
    destruct ll as [| x [| y l]]; [cbn in H2; lia| cbn in H2; lia|]. cbn [List.length Nat.eqb] in Hs.
    pose proof (path_cons_ne _ _ _ _ _ H3) as Hxy.
    inversion H1 as [| ? ? [Tx Mx] H1']; subst. inversion H1' as [| ? ? [Ty My] H1'']; subst.
    assert (Ho : one (cols x) = false) by (rewrite Hxy; now apply tidy_rows).
    destruct l as [| z l].
    + injection Hs as <- <-. split; [eauto|]. split; [exact Tx|]. cbn [path] in H3. destruct H3 as (R1 & R2 & R3). cbn [rows cols].
      split; [exact R1|]. split; [auto|]. split; [exact R3|]. split; [rewrite mon_mult; cbn [mons]; now rewrite lprod_one_r|]. split; [auto|]. split; [auto| discriminate].
    + unfold bind in Hs. cbn [pop_first] in Hs. rewrite (tidy_scalar x Tx) in Hs. cbn [fst snd rev_append] in Hs. injection Hs as <- <-.
      split; [eauto|]. split; [exact Tx|]. cbn [path] in H3. destruct H3 as (R1 & R2 & R3). cbn [rows cols].
      split; [exact R1|]. split; [auto|]. split; [reflexivity|]. split; [reflexivity|]. split; [|split; [auto| discriminate]].
      intros _. apply tidy_mult. split; [constructor; auto|]. split; [cbn; lia|]. split; [|reflexivity]. cbn [path]. auto.
Qed.
Lemma terms_first e l : tidy e -> is_add e = false -> terms e = Some l -> Forall tidy l.
Proof. intros Ht Ha Hl. destruct e; try discriminate; injection Hl as <-; [auto|]. now apply tidy_mult_terms in Ht. Qed.

Definition keeps (again : ex -> option ex) : Prop :=
  forall a e, tidy a -> is_add a = true -> NoDup (mon a) -> again a = Some e ->
    tidy e /\ rows e = rows a /\ cols e = cols a /\ Permutation (mon e) (mon a).
Lemma first_merge fuel again r c ti tj fi fj a inner m : keeps again ->
  good r c ti -> good r c tj -> is_add ti = false -> is_add tj = false -> NoDup (mon ti ++ mon tj) ->
  same_first_term fuel ti tj = Some true -> strip_first_term ti = Some fi -> strip_first_term tj = Some fj ->
  mkAdd (snd fi) (snd fj) = Some a -> again a = Some inner -> mkMult (fst fi) inner = Some m ->
  good r c m /\ is_mult m = true /\ Permutation (mon m) (mon ti ++ mon tj).
Proof.
  intros Hag (Ti & Ri & Ci) (Tj & Rj & Cj) Ai Aj Hd Hs Hfi Hfj Ha Hin Hm. destruct fi as [f q], fj as [f' q']. cbn [fst snd] in *.
  unfold same_first_term, bind in Hs. destruct (terms ti) as [li|] eqn:Eli; [|discriminate]. destruct (terms tj) as [lj|] eqn:Elj; [|discriminate].
  destruct (strip_first_ok ti li f q Ti Ai Eli Hfi) as ((tli & Hli) & Tf & Rf & Rq & Cq & Mi & Tq & Oi & Si).
  destruct (strip_first_ok tj lj f' q' Tj Aj Elj Hfj) as ((tlj & Hlj) & Tf' & Rf' & Rq' & Cq' & Mj & Tq' & Oj & Sj).
  rewrite (tidy_matrices li (terms_first ti li Ti Ai Eli)), (tidy_matrices lj (terms_first tj lj Tj Aj Elj)), Hli, Hlj in Hs.
  destruct (eqb_sound fuel f f' Tf Tf' Hs) as (Hr & Hc & Hset).
  assert (Ho : one (cols f) = false).
  { destruct (is_mult ti) eqn:Mti; [auto|]. destruct (is_mult tj) eqn:Mtj; [rewrite Hc; auto|]. exfalso.
    rewrite (Si eq_refl), (Sj eq_refl) in Hset. pose proof (mon_ne ti Ti) as Hne. destruct (mon ti) as [| x xs] eqn:Ex; [now destruct Hne|].
    apply (NoDup_app_disj _ _ x Hd); [now left| apply Hset; now left]. }
  specialize (Tq Ho). rewrite <- Hc in Tq'. specialize (Tq' Ho).
  destruct (mkAdd_tidy q q' a Tq Tq' Ha) as (Ta & Ra & Ca & _ & _ & Aa & Ma).
  assert (Nf : NoDup (mon f)). { apply (lprod_nodup_l _ (mon q)); [now apply mon_ne|]. rewrite <- Mi. now apply NoDup_app_l in Hd. }
  assert (Nf' : NoDup (mon f')). { apply (lprod_nodup_l _ (mon q')); [now apply mon_ne|]. rewrite <- Mj. now apply NoDup_app_r in Hd. }
  pose proof (same_set_perm _ _ Hset Nf Nf') as Hpf.
  assert (Hp : Permutation (lprod (mon f) (mon a)) (mon ti ++ mon tj)).
  { rewrite Ma, lprod_app_r, Mi, Mj. apply Permutation_app_head. now apply lprod_perm. }
  assert (Na : NoDup (mon a)). { apply (lprod_nodup_r (mon f)); [now apply mon_ne|]. eapply Permutation_NoDup; [symmetry; exact Hp| exact Hd]. }
  destruct (Hag a inner Ta Aa Na Hin) as (Tn & Rn & Cn & Pn).
  destruct (mkMult_tidy f inner m Tf Tn Hm) as (Tm & Rm & Cm & Im & Mm).
  split; [split; [exact Tm|]; split; congruence|]. split; [exact Im|]. rewrite Mm. rewrite <- Hp. now apply lprod_perm.
Qed.

Definition pass_ok (r c : dim) (total : list (list ex)) (o : pass) : Prop :=
  match o with
  | Collapsed m => good r c m /\ is_mult m = true /\ Permutation (mon m) total
  | Open t others => good r c t /\ Forall (good r c) others /\ Permutation (mon t ++ flat_map mon others) total
  end.
Lemma pass_ok_perm r c a b o : Permutation a b -> pass_ok r c a o -> pass_ok r c b o.
Proof. intros Hp. destruct o; cbn; intros H; rewrite <- Hp; exact H. Qed.
(** Two terms of a list merged into one *)
Lemma merge_perm ti tj m (mid rest : list ex) : Permutation (mon m) (mon ti ++ mon tj) ->
  Permutation (mon m ++ flat_map mon (rev mid ++ rest)) (mon ti ++ flat_map mon (rev mid ++ tj :: rest)).
Proof.
  intros H. rewrite !flat_map_app. cbn [flat_map]. rewrite H. rewrite <- app_assoc. apply Permutation_app_head.
  rewrite !app_assoc. apply Permutation_app_tail. apply Permutation_app_comm.
Qed.
Lemma pair_nodup ti tj (mid rest : list ex) : NoDup (mon ti ++ flat_map mon (rev mid ++ tj :: rest)) -> NoDup (mon ti ++ mon tj).
Proof.
  intros H. rewrite flat_map_app in H. cbn [flat_map] in H.
  assert (Hp : Permutation (mon ti ++ flat_map mon (rev mid) ++ mon tj ++ flat_map mon rest) ((mon ti ++ mon tj) ++ flat_map mon (rev mid) ++ flat_map mon rest)).
  { rewrite <- !app_assoc. apply Permutation_app_head. rewrite !app_assoc. apply Permutation_app_tail. apply Permutation_app_comm. }
  eapply NoDup_app_l. eapply Permutation_NoDup; [exact Hp| exact H].
Qed.
Lemma first_inner_ok fuel again r c : keeps again -> forall rest pre ti mid o,
  good r c ti -> Forall (good r c) mid -> Forall (good r c) rest -> NoDup (mon ti ++ flat_map mon (rev mid ++ rest)) ->
  first_inner fuel again pre ti mid rest = Some o ->
  pass_ok r c (mon ti ++ flat_map mon (rev mid ++ rest)) o /\ match o with Collapsed _ => pre = 0 | _ => True end.
Proof.
  intros Hag. induction rest as [| tj rest IH]; intros pre ti mid o Gi Gm Gr Hd H; cbn [first_inner] in H.
  - injection H as <-. rewrite app_nil_r. split; [|exact I]. split; [exact Gi|]. split; [now apply Forall_rev| reflexivity].
  - inversion Gr as [| ? ? Gj Gr']; subst.
    assert (Hskip : first_inner fuel again pre ti (tj :: mid) rest = Some o ->
      pass_ok r c (mon ti ++ flat_map mon (rev mid ++ tj :: rest)) o /\ match o with Collapsed _ => pre = 0 | _ => True end).
    { intros Hs. replace (rev mid ++ tj :: rest)%list with (rev (tj :: mid) ++ rest)%list in * by (cbn [rev]; now rewrite <- app_assoc).
      apply (IH pre ti (tj :: mid) o); auto. }
    destruct (is_add ti || is_add tj) eqn:Ea; [now apply Hskip|]. apply orb_false_elim in Ea as [Ai Aj]. unfold bind in H.
    destruct (same_first_term fuel ti tj) as [[|]|] eqn:Es; [|now apply Hskip| discriminate]. clear Hskip.
    destruct (strip_first_term ti) as [fi|] eqn:Efi; [|discriminate]. destruct (strip_first_term tj) as [fj|] eqn:Efj; [|discriminate].
    destruct (mkAdd (snd fi) (snd fj)) as [a|] eqn:Eadd; [|discriminate]. destruct (again a) as [inner|] eqn:Ein; [|discriminate].
    destruct (mkMult (fst fi) inner) as [m|] eqn:Em; [|discriminate].
    destruct (first_merge fuel again r c ti tj fi fj a inner m Hag Gi Gj Ai Aj (pair_nodup _ _ _ _ Hd) Es Efi Efj Eadd Ein Em) as (Gm' & Im & Pm).
    pose proof (merge_perm ti tj m mid rest Pm) as Hp.
    assert (Hgo : first_inner fuel again pre m mid rest = Some o ->
      pass_ok r c (mon ti ++ flat_map mon (rev mid ++ tj :: rest)) o /\ match o with Collapsed _ => pre = 0 | _ => True end).
    { intros Hs. apply IH in Hs; auto.
      - destruct Hs as [Hs1 Hs2]. split; [|exact Hs2]. now apply (pass_ok_perm r c _ _ o Hp).
      - eapply Permutation_NoDup; [symmetry; exact Hp| exact Hd]. }
    destruct pre as [| pre]; [|now apply Hgo]. destruct mid as [| x mid]; [|now apply Hgo]. destruct rest as [| x rest]; [|now apply Hgo].
    injection H as <-. split; [|reflexivity]. cbn [pass_ok rev app flat_map] in *. rewrite !app_nil_r in *. auto.
Qed.
Lemma first_outer_ok fuel again r c : keeps again -> forall k pre l o,
  Forall (good r c) pre -> Forall (good r c) l -> NoDup (flat_map mon (rev pre ++ l)) ->
  first_outer fuel again k pre l = Some o -> pass_ok r c (flat_map mon (rev pre ++ l)) o.
Proof.
  intros Hag. induction k as [| k IH]; intros pre l o Gp Gl Hd H; cbn [first_outer] in H; [discriminate|].
  destruct l as [| ti rest].
  - rewrite app_nil_r in *. apply Forall_rev in Gp. destruct (rev pre) as [| t r0]; [discriminate|]. injection H as <-. inversion Gp; subst. cbn. auto.
  - inversion Gl as [| ? ? Gi Gr]; subst. unfold bind in H.
    destruct (first_inner fuel again (List.length pre) ti [] rest) as [o1|] eqn:Ei; [|discriminate].
    assert (Hd1 : NoDup (mon ti ++ flat_map mon (rev [] ++ rest))).
    { rewrite flat_map_app in Hd. apply NoDup_app_r in Hd. exact Hd. }
    destruct (first_inner_ok fuel again r c Hag rest _ ti [] o1 Gi (Forall_nil _) Gr Hd1 Ei) as [Ho Hpre]. cbn [rev app] in Ho.
    destruct o1 as [m | t' rest'].
    + injection H as <-. destruct pre; [|discriminate Hpre]. cbn [rev app flat_map]. exact Ho.
    + destruct Ho as (Gt & Go & Hp).
      assert (Hp' : Permutation (flat_map mon (rev (t' :: pre) ++ rest')) (flat_map mon (rev pre ++ ti :: rest))).
      { cbn [rev]. rewrite <- app_assoc, !flat_map_app. cbn [flat_map]. rewrite app_nil_r. now apply Permutation_app_head. }
      apply (pass_ok_perm r c _ _ o Hp'). apply (IH (t' :: pre) rest' o); auto. eapply Permutation_NoDup; [symmetry; exact Hp'| exact Hd].
Qed.
Lemma go_on_same fuel m e : go_on fuel m = Some e -> e = m.
Proof.
  unfold go_on, bind. destruct (terms m) as [l|]; [|discriminate]. destruct l as [| t l]; [now intros [= <-]|].
  destruct (no_equal fuel m l); [|discriminate]. destruct (no_equals fuel l); [|discriminate]. now intros [= <-].
Qed.
Lemma factor_first_ok fuel : forall r c l e, tidy (Add r c l) -> NoDup (flat_map mon l) -> factor_first_term fuel (Add r c l) = Some e ->
  tidy e /\ rows e = r /\ cols e = c /\ Permutation (mon e) (flat_map mon l) /\
  (is_add e = true \/ (is_mult e = true /\ exists f, go_on f e = Some e)).
Proof.
  induction fuel as [| f IH]; intros r c l e Ht Hd H; [discriminate|]. cbn [factor_first_term] in H. unfold bind in H.
  destruct (first_outer f (factor_first_term f) (S (List.length l)) [] l) as [o|] eqn:Eo; [|discriminate].
  apply tidy_add in Ht as [Hl Hn].
  assert (Hag : keeps (factor_first_term f)).
  { intros a e' Ta Aa Na Ha. destruct a as [| | | r' c' l']; try discriminate. rewrite mon_add in *. cbn [rows cols].
    destruct (IH r' c' l' e' Ta Na Ha) as (H1 & H2 & H3 & H4 & _). auto. }
  pose proof (first_outer_ok f _ r c Hag _ [] l o (Forall_nil _) Hl Hd Eo) as Ho. cbn [rev app] in Ho. destruct o as [m| t rest].
  - pose proof (go_on_same f m e H) as ->. destruct Ho as ((Tm & Rm & Cm) & Im & Pm). repeat (split; [auto|]). right. split; [auto|]. now exists f.
  - injection H as <-. cbn [rebuild]. destruct Ho as (Gt & Go & Hp). split; [apply tidy_add; split; [constructor; auto| discriminate]|].
    split; [reflexivity|]. split; [reflexivity|]. split; [|now left]. rewrite mon_add. exact Hp.
Qed.

(** ** factor_last_term *)
Lemma path_split a t : forall r c, path r (a ++ [t]) c -> path r a (rows t) /\ cols t = c.
Proof. induction a as [| u a IH]; intros r c H; cbn [app path] in *; [destruct H; auto|]. destruct H as [Hr H]. destruct (IH _ _ H). auto. Qed.
Lemma last_split (l : list ex) : l <> [] -> exists a t, l = (a ++ [t])%list.
Proof. intros H. destruct (exists_last H) as (a & t & E). eauto. Qed.
Lemma strip_last_ok e l q f : tidy e -> is_add e = false -> terms e = Some l -> strip_last_term e = Some (q, f) ->
  (exists a, l = (a ++ [f])%list) /\ tidy f /\ tidy q /\ rows q = rows e /\ cols q = rows f /\ cols f = cols e /\ mon e = lprod (mon q) (mon f).
Proof.
  intros Ht Ha Hl Hs. destruct e as [n r c| b| r c m ll| r c ll]; try discriminate.
  - injection Hl as <-. unfold strip_last_term in Hs. cbn [len Nat.eqb] in Hs. unfold bind in Hs. cbn [rows] in Hs.
    destruct (identity r) as [i|] eqn:Ei; [|discriminate]. injection Hs as <- <-. unfold identity in Ei. destruct r as [k|]; [|discriminate]. injection Ei as <-.
    split; [exists []; reflexivity|]. split; [exact Ht|]. split.
    + cbn [tidy]. cbn [tidy] in Ht. split; [split; [discriminate| cbn; repeat split; discriminate]|]. tauto.
    + cbn [rows cols]. repeat (split; [reflexivity|]). symmetry. apply lprod_one_l.
  - injection Hl as <-. pose proof Ht as Ht'. apply tidy_mult in Ht' as (H1 & H2 & H3 & ->). unfold strip_last_term in Hs. cbn [len] in Hs.
    destruct ll as [| x [| y l]]; [cbn in H2; lia| cbn in H2; lia|]. cbn [List.length Nat.eqb] in Hs.
    destruct l as [| z l].
    + injection Hs as <- <-. inversion H1 as [| ? ? [Tx Mx] H1']; subst. inversion H1' as [| ? ? [Ty My] H1'']; subst.
      cbn [path] in H3. destruct H3 as (R1 & R2 & R3). split; [exists [x]; reflexivity|]. cbn [rows cols]. repeat (split; [auto|]).
      rewrite mon_mult. cbn [mons]. now rewrite lprod_one_r.
    + destruct (last_split (x :: y :: z :: l) ltac:(discriminate)) as (a & t & El). unfold bind in Hs.
      assert (Hla : 2 <= List.length a). { apply (f_equal (@List.length ex)) in El. rewrite app_length in El. cbn in El. lia. }
      rewrite El in *. apply Forall_app in H1 as [Fa Ft]. inversion Ft as [| ? ? [Tt Mt] _]; subst.
      unfold pop_last, bind in Hs. rewrite rev_app_distr in Hs. cbn [rev app pop_first] in Hs. rewrite (tidy_scalar t Tt) in Hs. cbn [fst snd rev_append] in Hs.
      rewrite rev_involutive in Hs. injection Hs as <- <-. apply path_split in H3 as [P1 P2].
      split; [eauto|]. split; [exact Tt|]. split; [apply tidy_mult; auto|]. cbn [rows cols]. repeat (split; [auto|]).
      rewrite !mon_mult, mons_app. cbn [mons]. now rewrite lprod_one_r.
Qed.
Lemma last_merge fuel r c ti tj fi fj a m : good r c ti -> good r c tj -> is_add ti = false -> is_add tj = false -> NoDup (mon ti ++ mon tj) ->
  same_last_term fuel ti tj = Some true -> strip_last_term ti = Some fi -> strip_last_term tj = Some fj ->
  mkAdd (fst fi) (fst fj) = Some a -> mkMult a (snd fi) = Some m ->
  good r c m /\ is_mult m = true /\ Permutation (mon m) (mon ti ++ mon tj).
Proof.
  intros (Ti & Ri & Ci) (Tj & Rj & Cj) Ai Aj Hd Hs Hfi Hfj Ha Hm. destruct fi as [q f], fj as [q' f']. cbn [fst snd] in *.
  unfold same_last_term, bind in Hs. destruct (terms ti) as [li|] eqn:Eli; [|discriminate]. destruct (terms tj) as [lj|] eqn:Elj; [|discriminate].
  destruct (strip_last_ok ti li q f Ti Ai Eli Hfi) as ((tli & Hli) & Tf & Tq & Rq & Cq & Cf & Mi).
  destruct (strip_last_ok tj lj q' f' Tj Aj Elj Hfj) as ((tlj & Hlj) & Tf' & Tq' & Rq' & Cq' & Cf' & Mj).
  rewrite (tidy_matrices li (terms_first ti li Ti Ai Eli)), (tidy_matrices lj (terms_first tj lj Tj Aj Elj)), Hli, Hlj, !rev_app_distr in Hs. cbn [rev app] in Hs.
  destruct (eqb_sound fuel f f' Tf Tf' Hs) as (Hr & Hc & Hset).
  destruct (mkAdd_tidy q q' a Tq Tq' Ha) as (Ta & Ra & Ca & _ & _ & Aa & Ma).
  assert (Nf : NoDup (mon f)). { apply (lprod_nodup_r (mon q)); [now apply mon_ne|]. rewrite <- Mi. now apply NoDup_app_l in Hd. }
  assert (Nf' : NoDup (mon f')). { apply (lprod_nodup_r (mon q')); [now apply mon_ne|]. rewrite <- Mj. now apply NoDup_app_r in Hd. }
  pose proof (same_set_perm _ _ Hset Nf Nf') as Hpf.
  destruct (mkMult_tidy a f m Ta Tf Hm) as (Tm & Rm & Cm & Im & Mm).
  split; [split; [exact Tm|]; split; congruence|]. split; [exact Im|]. rewrite Mm, Ma, lprod_app_l, Mi, Mj. apply Permutation_app_head. now apply lprod_perm.
Qed.
Lemma last_inner_ok fuel r c : forall rest pre ti mid o,
  good r c ti -> Forall (good r c) mid -> Forall (good r c) rest -> NoDup (mon ti ++ flat_map mon (rev mid ++ rest)) ->
  last_inner fuel pre ti mid rest = Some o ->
  pass_ok r c (mon ti ++ flat_map mon (rev mid ++ rest)) o /\ match o with Collapsed _ => pre = 0 | _ => True end.
Proof.
  induction rest as [| tj rest IH]; intros pre ti mid o Gi Gm Gr Hd H; cbn [last_inner] in H.
  - injection H as <-. rewrite app_nil_r. split; [|exact I]. split; [exact Gi|]. split; [now apply Forall_rev| reflexivity].
  - inversion Gr as [| ? ? Gj Gr']; subst.
    assert (Hskip : last_inner fuel pre ti (tj :: mid) rest = Some o ->
      pass_ok r c (mon ti ++ flat_map mon (rev mid ++ tj :: rest)) o /\ match o with Collapsed _ => pre = 0 | _ => True end).
    { intros Hs. replace (rev mid ++ tj :: rest)%list with (rev (tj :: mid) ++ rest)%list in * by (cbn [rev]; now rewrite <- app_assoc).
      apply (IH pre ti (tj :: mid) o); auto. }
    destruct (is_add ti || is_add tj) eqn:Ea; [now apply Hskip|]. apply orb_false_elim in Ea as [Ai Aj]. unfold bind in H.
    destruct (same_last_term fuel ti tj) as [[|]|] eqn:Es; [|now apply Hskip| discriminate]. clear Hskip.
    destruct (strip_last_term ti) as [fi|] eqn:Efi; [|discriminate]. destruct (strip_last_term tj) as [fj|] eqn:Efj; [|discriminate].
    destruct (mkAdd (fst fi) (fst fj)) as [a|] eqn:Eadd; [|discriminate].
    destruct (mkMult a (snd fi)) as [m|] eqn:Em; [|discriminate].
    destruct (last_merge fuel r c ti tj fi fj a m Gi Gj Ai Aj (pair_nodup _ _ _ _ Hd) Es Efi Efj Eadd Em) as (Gm' & Im & Pm).
    pose proof (merge_perm ti tj m mid rest Pm) as Hp.
    assert (Hgo : last_inner fuel pre m mid rest = Some o ->
      pass_ok r c (mon ti ++ flat_map mon (rev mid ++ tj :: rest)) o /\ match o with Collapsed _ => pre = 0 | _ => True end).
    { intros Hs. apply IH in Hs; auto.
      - destruct Hs as [Hs1 Hs2]. split; [|exact Hs2]. now apply (pass_ok_perm r c _ _ o Hp).
      - eapply Permutation_NoDup; [symmetry; exact Hp| exact Hd]. }
    destruct pre as [| pre]; [|now apply Hgo]. destruct mid as [| x mid]; [|now apply Hgo]. destruct rest as [| x rest]; [|now apply Hgo].
    injection H as <-. split; [|reflexivity]. cbn [pass_ok rev app flat_map] in *. rewrite !app_nil_r in *. auto.
Qed.
Lemma last_outer_ok fuel r c : forall k pre l o,
  Forall (good r c) pre -> Forall (good r c) l -> NoDup (flat_map mon (rev pre ++ l)) ->
  last_outer fuel k pre l = Some o -> pass_ok r c (flat_map mon (rev pre ++ l)) o.
Proof.
  induction k as [| k IH]; intros pre l o Gp Gl Hd H; cbn [last_outer] in H; [discriminate|].
  destruct l as [| ti rest].
  - rewrite app_nil_r in *. apply Forall_rev in Gp. destruct (rev pre) as [| t r0]; [discriminate|]. injection H as <-. inversion Gp; subst. cbn. auto.
  - inversion Gl as [| ? ? Gi Gr]; subst. unfold bind in H.
    destruct (last_inner fuel (List.length pre) ti [] rest) as [o1|] eqn:Ei; [|discriminate].
    assert (Hd1 : NoDup (mon ti ++ flat_map mon (rev [] ++ rest))).
    { rewrite flat_map_app in Hd. apply NoDup_app_r in Hd. exact Hd. }
    destruct (last_inner_ok fuel r c rest _ ti [] o1 Gi (Forall_nil _) Gr Hd1 Ei) as [Ho Hpre]. cbn [rev app] in Ho.
    destruct o1 as [m | t' rest'].
    + injection H as <-. destruct pre; [|discriminate Hpre]. cbn [rev app flat_map]. exact Ho.
    + destruct Ho as (Gt & Go & Hp).
      assert (Hp' : Permutation (flat_map mon (rev (t' :: pre) ++ rest')) (flat_map mon (rev pre ++ ti :: rest))).
      { cbn [rev]. rewrite <- app_assoc, !flat_map_app. cbn [flat_map]. rewrite app_nil_r. now apply Permutation_app_head. }
      apply (pass_ok_perm r c _ _ o Hp'). apply (IH (t' :: pre) rest' o); auto. eapply Permutation_NoDup; [symmetry; exact Hp'| exact Hd].
Qed.
(** A product that came out of factor_first_term has no two terms that compare equal *)
Definition apart (fuel : nat) (t u : ex) : Prop := is_add t || is_add u = true \/ same_first_term fuel t u = Some false.
Lemma no_equal_apart fuel t l : no_equal fuel t l = Some true -> Forall (apart fuel t) l.
Proof.
  induction l as [| u l IH]; cbn [no_equal]; intros H; [constructor|].
  destruct (is_add t || is_add u) eqn:Ea; [constructor; [now left| auto]|].
  unfold bind in H. destruct (same_first_term fuel t u) as [[|]|] eqn:Es; try discriminate. constructor; [now right| auto].
Qed.
Lemma no_equal_true fuel t l b : no_equal fuel t l = Some b -> b = true.
Proof.
  induction l as [| u l IH]; cbn [no_equal]; intros H; [congruence|]. destruct (is_add t || is_add u); [auto|].
  unfold bind in H. destruct (same_first_term fuel t u) as [[|]|]; try discriminate. auto.
Qed.
Lemma no_equals_apart fuel l b : no_equals fuel l = Some b -> ForallOrdPairs (apart fuel) l.
Proof.
  revert b. induction l as [| t l IH]; cbn [no_equals]; intros b H; [constructor|]. unfold bind in H.
  destruct (no_equal fuel t l) as [b'|] eqn:En; [|discriminate]. rewrite (no_equal_true _ _ _ _ En) in En. constructor; [now apply no_equal_apart| eauto].
Qed.
Definition never (fuel : nat) (t u : ex) : Prop := is_add t || is_add u = true \/ same_last_term fuel t u <> Some true.
Lemma eqb_const f g n r c u b : eqb f (Const n r c) u = Some b -> forall b', eqb g (Const n r c) u = Some b' -> b' = b.
Proof. destruct f, g; cbn [eqb]; intros H b' H'; congruence. Qed.
Lemma apart_never f g t u : tidy t -> tidy u -> is_mult t = false -> is_mult u = false -> apart f t u -> never g t u.
Proof.
  intros Tt Tu Mt Mu Ha. destruct (is_add t || is_add u) eqn:Ea; [now left|]. right. intros Hl.
  destruct Ha as [Ha|H]; [congruence|]. apply orb_false_elim in Ea as [At Au]. unfold same_first_term, same_last_term, bind in *.
  destruct t as [n r c| | |]; try discriminate; destruct u as [n' r' c'| | |]; try discriminate; cbn [terms] in *.
  rewrite !tidy_matrices in * by (constructor; auto). cbn [rev app] in Hl. pose proof (eqb_const _ g _ _ _ _ _ H _ Hl). discriminate.
Qed.
Lemma last_inner_same fuel : forall rest pre ti mid o, Forall (never fuel ti) rest -> last_inner fuel pre ti mid rest = Some o -> o = Open ti (rev mid ++ rest).
Proof.
  induction rest as [| tj rest IH]; intros pre ti mid o Hn H; cbn [last_inner] in H.
  - rewrite app_nil_r. congruence.
  - inversion Hn as [| ? ? Hj Hr]; subst.
    assert (Hs : last_inner fuel pre ti (tj :: mid) rest = Some o -> o = Open ti (rev mid ++ tj :: rest)).
    { intros Hs. apply IH in Hs; [|assumption]. rewrite Hs. cbn [rev]. now rewrite <- app_assoc. }
    destruct (is_add ti || is_add tj) eqn:Ea; [now apply Hs|]. unfold bind in H.
    destruct Hj as [Hj|Hj]; [congruence|]. destruct (same_last_term fuel ti tj) as [[|]|]; [now destruct Hj| now apply Hs| discriminate].
Qed.
Lemma last_outer_same fuel : forall k pre l o, ForallOrdPairs (never fuel) l -> last_outer fuel k pre l = Some o ->
  match (rev pre ++ l)%list with t :: r => o = Open t r | [] => False end.
Proof.
  induction k as [| k IH]; intros pre l o Hn H; cbn [last_outer] in H; [discriminate|]. destruct l as [| ti rest].
  - rewrite app_nil_r. destruct (rev pre); [discriminate| congruence].
  - inversion Hn as [| ? ? H1 H2]; subst. unfold bind in H. destruct (last_inner fuel (List.length pre) ti [] rest) as [o1|] eqn:Ei; [|discriminate].
    apply last_inner_same in Ei; [|assumption]. subst o1. cbn [rev app] in H. apply IH in H; [|assumption]. cbn [rev] in H. rewrite <- app_assoc in H. exact H.
Qed.
Lemma go_on_last f g r c m l e : tidy (Mult r c m l) -> go_on f (Mult r c m l) = Some e -> forall e', factor_last_term g (Mult r c m l) = Some e' -> e' = Mult r c m l.
Proof.
  intros Ht Hg e' H. pose proof (tidy_mult_terms _ _ _ _ Ht) as Hl. pose proof Ht as Ht'. apply tidy_mult in Ht' as (Hl' & Hn & _ & _).
  unfold go_on, bind in Hg. cbn [terms] in Hg. destruct l as [| h rl]; [cbn in Hn; lia|].
  destruct (no_equal f (Mult r c m (h :: rl)) rl) as [b1|] eqn:E1; [|discriminate]. destruct (no_equals f rl) as [b2|] eqn:E2; [|discriminate].
  rewrite (no_equal_true _ _ _ _ E1) in E1. apply no_equal_apart in E1. apply no_equals_apart in E2.
  inversion Hl as [| ? ? Th Hrl]; subst. inversion Hl' as [| ? ? [_ Mh] Hrl']; subst.
  assert (Hh : Forall (never g h) rl).
  { rewrite Forall_forall in *. intros u Hu. destruct (Hrl' u Hu) as [Tu Mu]. specialize (E1 u Hu).
    destruct (is_add h || is_add u) eqn:Ea; [now left|]. apply orb_false_elim in Ea as [Ah Au]. destruct E1 as [E1|E1]; [cbn in E1; congruence|].
    destruct h as [n r0 c0| b | |]; try discriminate.
    - apply (apart_never f g _ u Th Tu Mh Mu). unfold same_first_term, bind in E1. cbn [terms] in E1.
      rewrite (tidy_matrices (_ :: rl)) in E1 by (constructor; [auto| now apply Forall_forall]).
      right. unfold same_first_term, bind. cbn [terms]. rewrite (tidy_matrices [_]) by (constructor; auto). exact E1.
    - right. discriminate. }
  unfold factor_last_term, bind in H. destruct (last_outer g (S (List.length (h :: rl))) [] (h :: rl)) as [o|] eqn:Eo; [|discriminate].
  apply last_outer_same in Eo.
  - cbn [rev app] in Eo. subst o. cbn [rebuild] in H. congruence.
  - constructor; [exact Hh|]. clear - E2 Hrl'. induction E2 as [| t l H1 H2 IH]; [constructor|]. inversion Hrl' as [| ? ? [Tt Mt] Hr]; subst.
    constructor; [|auto]. rewrite Forall_forall in *. intros u Hu. destruct (Hr u Hu) as [Tu Mu]. apply (apart_never f g t u); auto.
Qed.
