From Coq Require Import ZArith String Ascii List Bool Lia.
From Verif Require Import LogNameModel LogNameProofs StrModel StrSpec StrProofs CfgModel CfgSpec.
Import ListNotations.

(** ** Keys *)
Lemma split_plain d : forall a t s, ~ has d a -> split_from d t (a ++ s) = split_from d (t ++ a) s.
Proof.
  induction a as [|c a IH]; intros t s H; cbn [append].
  - rewrite app_nil. reflexivity.
  - cbn [split_from]. destruct (Ascii.eqb_spec c d) as [E|E]; [exfalso; apply H; left; exact E|].
    rewrite IH by (intros X; apply H; right; exact X). rewrite app_assoc. reflexivity.
Qed.
Lemma split_joined p : names p -> split_string (key_of p) "/"%char = p.
Proof.
  intros (N & F & L). unfold split_string, key_of. revert N L. induction F as [|k p Hk F IH]; intros N L; [congruence|].
  destruct p as [|k2 p].
  - cbn [joined last] in *. rewrite <- (app_nil k) at 1. rewrite split_plain by exact Hk. cbn [append split_from]. destruct k; [congruence|reflexivity].
  - change (joined "/" (k :: k2 :: p)) with (k ++ String "/" (joined "/" (k2 :: p)))%string. rewrite split_plain by exact Hk. cbn [append split_from].
    rewrite Ascii.eqb_refl. f_equal. apply IH; [discriminate|exact L].
Qed.

(** ** Subscripts *)
Lemma key_is_ok k n : key_is k n = true <-> n = Scalar k.
Proof. destruct n; cbn [key_is]; try (split; discriminate). rewrite String.eqb_eq. split; congruence. Qed.
Lemma look_entry k v l : look k l = Some v <-> entry k v l.
Proof.
  induction l as [|[a w] l IH]; cbn [look].
  - split; [discriminate|]. intros H; inversion H.
  - destruct (key_is k a) eqn:E.
    + apply key_is_ok in E. subst a. split.
      * intros H. assert (w = v) as -> by congruence. constructor.
      * intros H. inversion H; subst; [reflexivity|congruence].
    + assert (a <> Scalar k) as NE by (intros ->; cbn [key_is] in E; rewrite String.eqb_refl in E; discriminate). rewrite IH. split.
      * intros H. constructor; assumption.
      * intros H. inversion H; subst; [congruence|assumption].
Qed.
Lemma look_numbered k v : forall l i, look k (numbered i l) = Some v <-> exists j, nth_error l j = Some v /\ k = dec (Z.of_nat (i + j)).
Proof.
  induction l as [|w l IH]; intros i; cbn [numbered look].
  - split; [discriminate|]. intros (j & H & _). destruct j; discriminate.
  - destruct (key_is k (Scalar (dec (Z.of_nat i)))) eqn:E.
    + apply key_is_ok in E. assert (K : k = dec (Z.of_nat i)) by congruence. clear E. split.
      * intros H. exists 0. rewrite Nat.add_0_r. split; [exact H|exact K].
      * intros (j & H & K2). rewrite K2 in K. apply dec_inj in K. assert (j = 0) as -> by lia. exact H.
    + rewrite IH. split; intros (j & H & K).
      * exists (S j). split; [exact H|]. rewrite K. do 2 f_equal. lia.
      * destruct j as [|j]; [|exists j; split; [exact H|rewrite K; do 2 f_equal; lia]].
        rewrite Nat.add_0_r in K. subst k. cbn [key_is] in E. rewrite String.eqb_refl in E. discriminate.
Qed.
Lemma subscript_step n k v : subscript n k = Child v <-> step k v n.
Proof.
  destruct n as [|s|l|l]; cbn [subscript].
  - split; [discriminate|]. intros H; inversion H.
  - split; [discriminate|]. intros H; inversion H.
  - destruct (look k (numbered 0 l)) as [w|] eqn:E.
    + split.
      * intros H. assert (w = v) as -> by congruence. apply look_numbered in E. destruct E as (j & H1 & H2). exact (st_seq _ _ _ j H1 H2).
      * intros H. inversion H as [|? i H1 H2]; subst. assert (X : look (dec (Z.of_nat i)) (numbered 0 l) = Some v) by (apply look_numbered; exists i; auto). congruence.
    + split; [discriminate|]. intros H. inversion H as [|? i H1 H2]; subst.
      assert (X : look (dec (Z.of_nat i)) (numbered 0 l) = Some v) by (apply look_numbered; exists i; auto). congruence.
  - destruct (look k l) as [w|] eqn:E.
    + split.
      * intros H. assert (w = v) as -> by congruence. constructor. apply look_entry. exact E.
      * intros H. inversion H as [? H1|]; subst. apply look_entry in H1. congruence.
    + split; [discriminate|]. intros H. inversion H as [? H1|]; subst. apply look_entry in H1. congruence.
Qed.
Lemma subscript_raises n k : subscript n k = BadSubscript <-> exists s, n = Scalar s.
Proof.
  destruct n as [|s|l|l]; cbn [subscript]; try (split; [discriminate|intros [? ?]; discriminate]).
  - split; [|reflexivity]. intros _. exists s. reflexivity.
  - destruct (look _ _); (split; [discriminate|intros [? ?]; discriminate]).
  - destruct (look _ _); (split; [discriminate|intros [? ?]; discriminate]).
Qed.
Lemma at_cons v n k p : at_path v n (k :: p) <-> exists c, subscript n k = Child c /\ at_path v c p.
Proof.
  split.
  - intros H. inversion H as [|? c ? ? S A]; subst. exists c. split; [apply subscript_step; exact S|exact A].
  - intros (c & S & A). apply subscript_step in S. exact (ap_down _ _ _ _ _ S A).
Qed.
Lemma at_nil v n : at_path v n [] <-> v = n.
Proof. split; [intros H; inversion H; reflexivity|]. intros ->. constructor. Qed.
Lemma at_one v w n p : at_path v n p -> at_path w n p -> v = w.
Proof.
  revert n. induction p as [|k p IH]; intros n A B.
  - apply at_nil in A, B. congruence.
  - apply at_cons in A, B. destruct A as (c & S & A). destruct B as (c' & S' & B). assert (c' = c) as -> by congruence. exact (IH _ A B).
Qed.

(** ** get *)
Section conversions.
  Context {A : Type} (conv : yaml -> conversion A).
  (** what the path leads to: a value, nothing, or a scalar with names left *)
  Inductive found (n : yaml) : list string -> child -> Prop :=
  | fo_value p v : at_path v n p -> found n p (Child v)
  | fo_none p : (forall v, ~ at_path v n p) -> (forall p1 k p2 s, p = p1 ++ k :: p2 -> ~ at_path (Scalar s) n p1) -> found n p Missing
  | fo_scalar p1 k p2 s : at_path (Scalar s) n p1 -> found n (p1 ++ k :: p2) BadSubscript.
  Lemma descend : forall p n, exists c, found n p c.
  Proof.
    induction p as [|k p IH]; intros n.
    - exists (Child n). constructor. constructor.
    - destruct (subscript n k) as [c| |] eqn:S.
      + destruct (IH c) as [r F]. exists r. destruct F as [p v A0|p N1 N2|p1 k2 p2 s A0].
        * constructor. apply at_cons. exists c. auto.
        * constructor.
          -- intros v X. apply at_cons in X. destruct X as (c' & S' & X). assert (c' = c) as -> by congruence. exact (N1 v X).
          -- intros p1 k2 p2 s E X. destruct p1 as [|j p1].
             ++ apply at_nil in X. subst n. cbn in S. discriminate.
             ++ cbn [app] in E. assert (j = k) as -> by congruence. assert (E2 : p = p1 ++ k2 :: p2) by congruence.
                apply at_cons in X. destruct X as (c' & S' & X). assert (c' = c) as -> by congruence. exact (N2 _ _ _ _ E2 X).
        * change (found n ((k :: p1) ++ k2 :: p2) BadSubscript). apply fo_scalar with s. apply at_cons. exists c. auto.
      + exists Missing. constructor.
        * intros v X. apply at_cons in X. destruct X as (c' & S' & X). congruence.
        * intros p1 k2 p2 s E X. destruct p1 as [|j p1].
          -- apply at_nil in X. subst n. cbn in S. discriminate.
          -- cbn [app] in E. assert (j = k) as -> by congruence. apply at_cons in X. destruct X as (c' & S' & X). congruence.
      + exists BadSubscript. apply subscript_raises in S. destruct S as [s ->]. exact (fo_scalar _ [] k p s (ap_here _)).
  Qed.
  Lemma get_found : forall p n c req, p <> [] -> found n p c ->
    get_path conv n p req =
    match c with
    | Child v => match conv v with Value a => Found a | BadConversion => NotFound | OtherException => Raise end
    | Missing => if req then Exit else NotFound
    | BadSubscript => Raise
    end.
  Proof.
    induction p as [|k p IH]; intros n c req N F; [congruence|]. clear N. cbn [get_path].
    destruct (subscript n k) as [d| |] eqn:S.
    - destruct p as [|k2 p].
      + inversion F as [? v A0|? N1 N2|p1 k3 p2 s A0]; subst.
        * apply at_cons in A0. destruct A0 as (d' & S' & A0). apply at_nil in A0. subst. assert (d' = d) as -> by congruence. reflexivity.
        * exfalso. apply (N1 d). apply at_cons. exists d. split; [exact S|constructor].
        * destruct p1 as [|j [|j2 p1]]; try discriminate. apply at_nil in A0. subst n. discriminate.
      + apply IH; [discriminate|]. inversion F as [? v A0|? N1 N2|p1 k3 p2 s A0 EQ]; subst.
        * apply at_cons in A0. destruct A0 as (d' & S' & A0). assert (d' = d) as -> by congruence. constructor. exact A0.
        * constructor.
          -- intros v X. apply (N1 v). apply at_cons. exists d. auto.
          -- intros p1 k3 p2 s E X. apply (N2 (k :: p1) k3 p2 s); [cbn [app]; congruence|]. apply at_cons. exists d. auto.
        * destruct p1 as [|j p1]; [apply at_nil in A0; subst n; discriminate|]. cbn [app] in EQ. assert (j = k) as -> by congruence.
          assert (E2 : k2 :: p = p1 ++ k3 :: p2) by congruence. rewrite E2. apply at_cons in A0. destruct A0 as (d' & S' & A0).
          assert (d' = d) as -> by congruence. exact (fo_scalar _ _ _ _ _ A0).
    - inversion F as [? v A0|? N1 N2|p1 k3 p2 s A0 EQ]; subst.
      + apply at_cons in A0. destruct A0 as (d' & S' & A0). congruence.
      + reflexivity.
      + destruct p1 as [|j p1]; [apply at_nil in A0; subst n; discriminate|]. cbn [app] in EQ. assert (j = k) as -> by congruence.
        apply at_cons in A0. destruct A0 as (d' & S' & A0). congruence.
    - inversion F as [? v A0|? N1 N2|p1 k3 p2 s A0 EQ]; subst.
      + apply at_cons in A0. destruct A0 as (d' & S' & A0). congruence.
      + apply subscript_raises in S. destruct S as [s ->]. exfalso. exact (N2 [] k p s eq_refl (ap_here _)).
      + reflexivity.
  Qed.
  Lemma not_both n p v p1 k p2 s : at_path v n p -> p = p1 ++ k :: p2 -> ~ at_path (Scalar s) n p1.
  Proof.
    intros A0 -> B. revert n A0 B. induction p1 as [|j p1 IH]; intros n A0 B; cbn [app] in A0.
    - apply at_nil in B. subst n. apply at_cons in A0. destruct A0 as (c & S & _). discriminate.
    - apply at_cons in A0, B. destruct A0 as (c & S & A0). destruct B as (c' & S' & B). assert (c' = c) as -> by congruence. exact (IH _ A0 B).
  Qed.

  Lemma get_value n p a req : names p -> (get conv n (key_of p) req = Found a <-> exists v, at_path v n p /\ conv v = Value a).
  Proof.
    intros N. unfold get. rewrite (split_joined p N). destruct (descend p n) as [c F]. rewrite (get_found p n c req (proj1 N) F).
    destruct F as [p v A0|p N1 N2|p1 k p2 s A0].
    - destruct (conv v) as [b| |] eqn:C.
      + split; [intros H; exists v; split; [exact A0|congruence]|]. intros (w & B & D). rewrite (at_one _ _ _ _ B A0) in D. congruence.
      + split; [discriminate|]. intros (w & B & D). rewrite (at_one _ _ _ _ B A0) in D. congruence.
      + split; [discriminate|]. intros (w & B & D). rewrite (at_one _ _ _ _ B A0) in D. congruence.
    - destruct req; (split; [discriminate|]); intros (w & B & D); exfalso; exact (N1 w B).
    - split; [discriminate|]. intros (w & B & D). exfalso. exact (not_both _ _ _ _ _ _ _ B eq_refl A0).
  Qed.
  Lemma get_false n p req : names p ->
    (get conv n (key_of p) req = NotFound <->
     (exists v, at_path v n p /\ conv v = BadConversion) \/
     (req = false /\ (forall v, ~ at_path v n p) /\ (forall p1 k p2 s, p = p1 ++ k :: p2 -> ~ at_path (Scalar s) n p1))).
  Proof.
    intros N. unfold get. rewrite (split_joined p N). destruct (descend p n) as [c F]. rewrite (get_found p n c req (proj1 N) F).
    destruct F as [p v A0|p N1 N2|p1 k p2 s A0].
    - destruct (conv v) as [b| |] eqn:C.
      + split; [discriminate|]. intros [(w & B & D)|(_ & X & _)]; [rewrite (at_one _ _ _ _ B A0) in D; congruence|exfalso; exact (X _ A0)].
      + split; [|reflexivity]. intros _. left. exists v. auto.
      + split; [discriminate|]. intros [(w & B & D)|(_ & X & _)]; [rewrite (at_one _ _ _ _ B A0) in D; congruence|exfalso; exact (X _ A0)].
    - destruct req.
      + split; [discriminate|]. intros [(w & B & D)|(X & _)]; [exfalso; exact (N1 w B)|discriminate].
      + split; [|reflexivity]. intros _. right. auto.
    - split; [discriminate|]. intros [(w & B & D)|(_ & _ & X)]; [exfalso; exact (not_both _ _ _ _ _ _ _ B eq_refl A0)|exfalso; exact (X _ _ _ _ eq_refl A0)].
  Qed.
  Lemma get_exit n p req : names p ->
    (get conv n (key_of p) req = Exit <->
     req = true /\ (forall v, ~ at_path v n p) /\ (forall p1 k p2 s, p = p1 ++ k :: p2 -> ~ at_path (Scalar s) n p1)).
  Proof.
    intros N. unfold get. rewrite (split_joined p N). destruct (descend p n) as [c F]. rewrite (get_found p n c req (proj1 N) F).
    destruct F as [p v A0|p N1 N2|p1 k p2 s A0].
    - destruct (conv v); (split; [discriminate|]); intros (_ & X & _); exfalso; exact (X _ A0).
    - destruct req; [split; [intros _; auto|reflexivity]|]. split; [discriminate|]. intros (X & _). discriminate.
    - split; [discriminate|]. intros (_ & _ & X). exfalso. exact (X _ _ _ _ eq_refl A0).
  Qed.
  Lemma get_raise n p req : names p ->
    (get conv n (key_of p) req = Raise <->
     (exists v, at_path v n p /\ conv v = OtherException) \/ (exists p1 k p2 s, p = p1 ++ k :: p2 /\ at_path (Scalar s) n p1)).
  Proof.
    intros N. unfold get. rewrite (split_joined p N). destruct (descend p n) as [c F]. rewrite (get_found p n c req (proj1 N) F).
    destruct F as [p v A0|p N1 N2|p1 k p2 s A0].
    - destruct (conv v) as [b| |] eqn:C.
      + split; [discriminate|]. intros [(w & B & D)|(p1 & k & p2 & s & E & B)]; [rewrite (at_one _ _ _ _ B A0) in D; congruence|exfalso; exact (not_both _ _ _ _ _ _ _ A0 E B)].
      + split; [discriminate|]. intros [(w & B & D)|(p1 & k & p2 & s & E & B)]; [rewrite (at_one _ _ _ _ B A0) in D; congruence|exfalso; exact (not_both _ _ _ _ _ _ _ A0 E B)].
      + split; [|reflexivity]. intros _. left. exists v. auto.
    - destruct req; (split; [discriminate|]); intros [(w & B & D)|(p1 & k & p2 & s & E & B)]; exfalso; [exact (N1 w B)|exact (N2 _ _ _ _ E B)|exact (N1 w B)|exact (N2 _ _ _ _ E B)].
    - split; [|reflexivity]. intros _. right. exists p1, k, p2, s. auto.
  Qed.
End conversions.

(** ** Conversions *)
Lemma scalar_other {A} (d : string -> option A) n : as_scalar d n <> OtherException.
Proof. destruct n; cbn; try discriminate. destruct (d s); discriminate. Qed.
Lemma elements_all {A} (d : string -> option A) l x : elements d l = Some x <-> Forall2 (fun n a => as_scalar d n = Value a) l x.
Proof.
  revert x. induction l as [|n l IH]; intros x; cbn [elements].
  - split; [intros H; assert (x = []) as -> by congruence; constructor|]. intros H. inversion H. reflexivity.
  - destruct (as_scalar d n) as [a| |] eqn:E.
    + destruct (elements d l) as [y|] eqn:E2.
      * split; [intros H; assert (x = a :: y) as -> by congruence; constructor; [exact E|apply IH; reflexivity]|].
        intros H. inversion H as [|? b ? z H1 H2]; subst. apply IH in H2. congruence.
      * split; [discriminate|]. intros H. inversion H as [|? b ? z H1 H2]; subst. apply IH in H2. congruence.
    + split; [discriminate|]. intros H. inversion H as [|? b ? z H1 H2]; subst. congruence.
    + split; [discriminate|]. intros H. inversion H as [|? b ? z H1 H2]; subst. congruence.
Qed.
Lemma concat_shape {A} rows cols (m : list (list A)) : shape rows cols m -> length (concat m) = rows * cols.
Proof.
  intros [<- F]. induction F as [|r m Hr F IH]; [reflexivity|]. cbn [concat length]. rewrite List.app_length, Hr, IH. reflexivity.
Qed.
Lemma read_shape {A} : forall rows cols (m : list (list A)) rest, shape rows cols m -> read_rows (concat m ++ rest) rows cols = Some m.
Proof.
  induction rows as [|rows IH]; intros cols m rest [L F].
  - destruct m; [reflexivity|discriminate].
  - destruct m as [|r m]; [discriminate|]. inversion F as [|? ? Hr F']; subst. cbn [concat read_rows]. rewrite <- List.app_assoc.
    destruct (Nat.ltb_spec (length (r ++ concat m ++ rest)) (length r)) as [C|C]; [rewrite List.app_length in C; lia|].
    rewrite skipn_app, skipn_all, Nat.sub_diag. cbn [app skipn]. rewrite (IH (length r) m rest) by (split; [cbn [length] in L; lia|exact F']).
    rewrite firstn_app, firstn_all, Nat.sub_diag. cbn [firstn]. rewrite app_nil_r. reflexivity.
Qed.
Lemma read_some {A} : forall rows cols (l : list A) m, read_rows l rows cols = Some m -> shape rows cols m /\ concat m = firstn (rows * cols) l.
Proof.
  induction rows as [|rows IH]; intros cols l m H; cbn [read_rows] in H.
  - assert (m = []) as -> by congruence. repeat split. constructor.
  - destruct (Nat.ltb_spec (length l) cols) as [C|C]; [discriminate|]. destruct (read_rows (skipn cols l) rows cols) as [m'|] eqn:E; [|discriminate].
    assert (m = firstn cols l :: m') as -> by congruence. destruct (IH _ _ _ E) as [[L F] G]. split.
    + split; [cbn [length]; lia|]. constructor; [apply firstn_length_le; lia|exact F].
    + cbn [concat]. rewrite G. change (S rows * cols) with (cols + rows * cols).
      rewrite <- (firstn_skipn cols l) at 3. rewrite firstn_app, firstn_firstn, firstn_length_le by lia.
      replace (Nat.min (cols + rows * cols) cols) with cols by lia. f_equal. f_equal. lia.
Qed.
Lemma read_short {A} : forall rows cols (l : list A), length l < rows * cols -> read_rows l rows cols = None.
Proof.
  induction rows as [|rows IH]; intros cols l H; [lia|]. cbn [read_rows]. destruct (Nat.ltb_spec (length l) cols) as [C|C]; [reflexivity|].
  rewrite IH; [reflexivity|]. rewrite skipn_length. lia.
Qed.

(** ** Matrices through get *)
Lemma get_matrix_found {A} (d : string -> option A) n p rows cols req l x : names p -> at_path (Seq l) n p ->
  Forall2 (fun n a => as_scalar d n = Value a) l x ->
  get_matrix d n (key_of p) rows cols req = match read_rows x rows cols with Some m => Some (Found m) | None => None end.
Proof.
  intros N A0 F. unfold get_matrix. assert (G : get (as_vector d) n (key_of p) req = Found x).
  { apply get_value; [exact N|]. exists (Seq l). split; [exact A0|]. cbn [as_vector]. apply elements_all in F. rewrite F. reflexivity. }
  rewrite G. reflexivity.
Qed.
Lemma encoded_all {A} (e : A -> string) (d : string -> option A) l : (forall x, In x l -> d (e x) = Some x) ->
  Forall2 (fun n a => as_scalar d n = Value a) (map (fun x => Scalar (e x)) l) l.
Proof.
  induction l as [|x l IH]; intros H; [constructor|]. cbn [map]. constructor.
  - cbn [as_scalar]. rewrite (H x (in_eq _ _)). reflexivity.
  - apply IH. intros y I. apply H. right. exact I.
Qed.
Lemma decode_row_ok {A} (d : string -> option A) : forall r l rest, Forall2 (fun n a => as_scalar d n = Value a) l r ->
  decode_row d (l ++ rest) (length r) = Value (r, rest).
Proof.
  induction r as [|x r IH]; intros l rest H; inversion H as [|n ? l' ? H1 H2]; subst; [reflexivity|].
  cbn [app length decode_row]. rewrite H1, (IH _ _ H2). reflexivity.
Qed.
Lemma Forall2_app_r {A B} (P : A -> B -> Prop) : forall y1 y2 x, Forall2 P x (y1 ++ y2) -> exists x1 x2, x = x1 ++ x2 /\ Forall2 P x1 y1 /\ Forall2 P x2 y2.
Proof. intros y1 y2 x H. apply Forall2_app_inv_r in H. destruct H as (x1 & x2 & H1 & H2 & E). exists x1, x2. auto. Qed.
Lemma decode_rows_ok {A} (d : string -> option A) cols : forall m l rest, Forall (fun r => length r = cols) m ->
  Forall2 (fun n a => as_scalar d n = Value a) l (concat m) -> decode_rows d (l ++ rest) (length m) cols = Value m.
Proof.
  induction m as [|r m IH]; intros l rest F H; [reflexivity|]. inversion F as [|? ? Hr F']; subst. cbn [concat] in H.
  destruct (Forall2_app_r _ _ _ _ H) as (l1 & l2 & -> & H1 & H2). cbn [length decode_rows]. rewrite <- List.app_assoc, (decode_row_ok d r l1 _ H1), (IH l2 rest F' H2). reflexivity.
Qed.
Lemma row_short {A} (d : string -> option A) : forall cols l x, Forall2 (fun n a => as_scalar d n = Value a) l x -> length l < cols -> decode_row d l cols = BadConversion.
Proof.
  induction cols as [|cols IH]; intros l x H L; [lia|]. cbn [decode_row]. inversion H as [|n a l' x' H1 H2]; subst; [reflexivity|].
  rewrite H1, (IH _ _ H2) by (cbn [length] in L; lia). reflexivity.
Qed.
Lemma F2_len {A B} (P : A -> B -> Prop) l x : Forall2 P l x -> length l = length x.
Proof. induction 1; cbn [length]; congruence. Qed.
Lemma F2_firstn {A B} (P : A -> B -> Prop) : forall k l x, Forall2 P l x -> Forall2 P (firstn k l) (firstn k x) /\ Forall2 P (skipn k l) (skipn k x).
Proof.
  induction k as [|k IH]; intros l x H; [split; [constructor|exact H]|]. destruct H as [|a b l x H1 H2]; [split; constructor|].
  destruct (IH _ _ H2) as [F S]. split; [constructor; assumption|exact S].
Qed.
Lemma rows_short {A} (d : string -> option A) : forall rows cols l x, Forall2 (fun n a => as_scalar d n = Value a) l x ->
  length l < rows * cols -> decode_rows d l rows cols = BadConversion.
Proof.
  induction rows as [|rows IH]; intros cols l x H L; [lia|]. cbn [decode_rows]. destruct (Nat.lt_ge_cases (length l) cols) as [C|C].
  - rewrite (row_short d cols l x H C). reflexivity.
  - destruct (F2_firstn _ cols _ _ H) as [F S]. pose proof (F2_len _ _ _ F) as L1. rewrite firstn_length_le in L1 by exact C.
    pose proof (decode_row_ok d (firstn cols x) (firstn cols l) (skipn cols l) F) as D. rewrite firstn_skipn, <- L1 in D. rewrite D.
    rewrite (IH cols (skipn cols l) (skipn cols x) S); [reflexivity|]. rewrite skipn_length. lia.
Qed.
Lemma read_enough {A} : forall rows cols (l : list A), rows * cols <= length l -> read_rows l rows cols <> None.
Proof.
  induction rows as [|rows IH]; intros cols l H; cbn [read_rows]; [discriminate|]. destruct (Nat.ltb_spec (length l) cols) as [C|C]; [lia|].
  assert (X : read_rows (skipn cols l) rows cols <> None) by (apply IH; rewrite skipn_length; lia).
  destruct (read_rows (skipn cols l) rows cols); [discriminate|congruence].
Qed.
