(** Property theorems about configurations (C179 - C183).  [num] is an arbitrary
    conversion of the text of a scalar (to a number, a truth value, a string). *)
From Coq Require Import ZArith String Ascii List Lia DecimalString.
From Verif Require Import LogNameModel LogNameProofs StrSpec CfgModel CfgSpec CfgProofs.
Import ListNotations.
Local Open Scope string_scope.

(** a configuration and a conversion to integers for the examples *)
Definition int (s : string) : option Z := option_map Z.of_int (NilZero.int_of_string s).
Definition cfg0 : yaml :=
  Map [(Scalar "dt", Scalar "10"); (Scalar "name", Scalar "car");
       (Scalar "imu", Map [(Scalar "rate", Scalar "250"); (Scalar "bias", Seq [Scalar "1"; Scalar "2"; Scalar "3"]); (Scalar "bad", Seq [Scalar "1"; Scalar "x"])]);
       (Scalar "m", Seq [Scalar "1"; Scalar "2"; Scalar "3"; Scalar "4"]); (Scalar "none", Null)].

(** C179: get returns true exactly when the path leads to a value of the type
    asked for, and it is this value that the output becomes. *)
Theorem c179_value : forall A (num : string -> option A) cfg p required a, names p ->
  (get (as_scalar num) cfg (key_of p) required = Found a <-> exists s, at_path (Scalar s) cfg p /\ num s = Some a).
Proof.
  intros A num cfg p required a N. rewrite (get_value (as_scalar num) cfg p a required N). split.
  - intros (v & P & C). destruct v as [|s|l|l]; cbn [as_scalar] in C; try discriminate. exists s. split; [exact P|].
    destruct (num s); congruence.
  - intros (s & P & C). exists (Scalar s). split; [exact P|]. cbn [as_scalar]. rewrite C. reflexivity.
Qed.
Print Assumptions c179_value.
Theorem c179_list : forall A (num : string -> option A) cfg p required l, names p ->
  (get (as_vector num) cfg (key_of p) required = Found l <->
   exists ts, at_path (Seq (map Scalar ts)) cfg p /\ map num ts = map Some l).
Proof.
  intros A num cfg p required l N. rewrite (get_value (as_vector num) cfg p l required N). split.
  - intros (v & P & C). destruct v as [|s|ns|ns]; cbn [as_vector] in C; try discriminate.
    destruct (elements num ns) as [x|] eqn:E; [|discriminate]. assert (x = l) as -> by congruence. clear C. apply elements_all in E.
    assert (X : exists ts, ns = map Scalar ts /\ map num ts = map Some l).
    { clear P. induction E as [|n a ns l H1 H2 IH]; [exists []; split; reflexivity|]. destruct IH as (ts & -> & M).
      destruct n as [|s|?|?]; cbn [as_scalar] in H1; try discriminate. exists (s :: ts). split; [reflexivity|]. cbn [map]. rewrite M.
      destruct (num s); congruence. }
    destruct X as (ts & -> & M). exists ts. split; assumption.
  - intros (ts & P & M). exists (Seq (map Scalar ts)). split; [exact P|]. cbn [as_vector].
    assert (X : elements num (map Scalar ts) = Some l).
    { clear P. revert l M. induction ts as [|t ts IH]; intros [|a l] M; try discriminate; [reflexivity|].
      cbn [map] in M. assert (H1 : num t = Some a) by congruence. assert (H2 : map num ts = map Some l) by congruence.
      cbn [map elements as_scalar]. rewrite H1, (IH l H2). reflexivity. }
    rewrite X. reflexivity.
Qed.
Print Assumptions c179_list.

Example c179_case : names ["imu"; "rate"] /\ key_of ["imu"; "rate"] = "imu/rate" /\ get (as_scalar int) cfg0 "imu/rate" true = Found 250%Z /\
  get (as_vector int) cfg0 "imu/bias" true = Found [1; 2; 3]%Z /\ get (as_scalar int) cfg0 "imu/bias/1" true = Found 2%Z /\
  get (as_scalar int) cfg0 "imu/missing" false = NotFound.
Proof.
  split; [split; [discriminate|split; [|discriminate]]; repeat constructor; cbn; intuition discriminate|].
  repeat split; reflexivity.
Qed.

(** C180, full statement (false of the code): a required setting is delivered,
    or the program ends. *)
Theorem c180_required_refuted : exists cfg p, names p /\
  get (as_scalar int) cfg (key_of p) true = NotFound /\ get (as_scalar int) cfg "" true = NotFound.
Proof.
  exists cfg0, ["name"]. split; [split; [discriminate|split; [|discriminate]]; repeat constructor; cbn; intuition discriminate|].
  split; reflexivity.
Qed.
Print Assumptions c180_required_refuted.
(** A required setting that is missing ends the program, and one that is
    there does not; false is returned for a required setting exactly when it is there
    and is not of the type asked for. *)
Theorem c180_required_partial : forall A (num : string -> option A) cfg p, names p ->
  (get (as_scalar num) cfg (key_of p) true = Exit ->
     forall v, ~ at_path v cfg p) /\
  ((forall v, ~ at_path v cfg p) ->
     get (as_scalar num) cfg (key_of p) true = Exit \/ get (as_scalar num) cfg (key_of p) true = Raise) /\
  (get (as_scalar num) cfg (key_of p) true = NotFound <->
     exists v, at_path v cfg p /\ forall s, v = Scalar s -> num s = None).
Proof.
  intros A num cfg p N. split; [|split].
  - intros H. apply get_exit in H; [|exact N]. apply H.
  - intros M. destruct (get (as_scalar num) cfg (key_of p) true) as [a| | |] eqn:G; auto; exfalso.
    + apply get_value in G; [|exact N]. destruct G as (v & P & _). exact (M v P).
    + apply get_false in G; [|exact N]. destruct G as [(v & P & _)|(X & _)]; [exact (M v P)|discriminate].
  - rewrite (get_false (as_scalar num) cfg p true N). split.
    + intros [(v & P & C)|(X & _)]; [|discriminate]. exists v. split; [exact P|]. intros s ->. cbn [as_scalar] in C. destruct (num s); [discriminate|reflexivity].
    + intros (v & P & C). left. exists v. split; [exact P|]. destruct v as [|s|l|l]; cbn [as_scalar]; try reflexivity. rewrite (C s eq_refl). reflexivity.
Qed.
Print Assumptions c180_required_partial.
Example c180_case : get (as_scalar int) cfg0 "imu/missing" true = Exit /\ get (as_scalar int) cfg0 "dt" true = Found 10%Z.
Proof. split; reflexivity. Qed.

(** C181, full statement (false of the code): get never throws. *)
Theorem c181_throws_refuted : exists cfg, get (as_scalar int) cfg "dt/x" false = Raise /\ get (as_vector int) cfg "imu/bad" false = Raise.
Proof. exists cfg0. split; reflexivity. Qed.
Print Assumptions c181_throws_refuted.
(** It throws exactly when the path goes on from a scalar, and, for lists, when
    an element is not of the type asked for. *)
Theorem c181_throws_partial : forall A (num : string -> option A) cfg p required, names p ->
  (get (as_scalar num) cfg (key_of p) required = Raise <-> exists p1 k p2 s, p = p1 ++ k :: p2 /\ at_path (Scalar s) cfg p1)%list /\
  (get (as_vector num) cfg (key_of p) required = Raise <->
     (exists p1 k p2 s, p = p1 ++ k :: p2 /\ at_path (Scalar s) cfg p1)%list \/
     (exists l v, at_path (Seq l) cfg p /\ In v l /\ forall s, v = Scalar s -> num s = None)).
Proof.
  intros A num cfg p required N. split.
  - rewrite (get_raise (as_scalar num) cfg p required N). split; [|right; assumption].
    intros [(v & _ & C)|H]; [exfalso; exact (scalar_other num v C)|exact H].
  - rewrite (get_raise (as_vector num) cfg p required N).
    assert (EL : forall l, elements num l = None <-> exists v, In v l /\ forall s, v = Scalar s -> num s = None).
    { induction l as [|n l IH]; cbn [elements]; [split; [discriminate|intros (v & [] & _)]|].
      assert (SC : (exists a, as_scalar num n = Value a) \/ (as_scalar num n = BadConversion /\ forall s, n = Scalar s -> num s = None)).
      { destruct n as [|s|?|?]; cbn [as_scalar]; try (right; split; [reflexivity|intros; discriminate]).
        destruct (num s) as [a|] eqn:E; [left; exists a; reflexivity|]. right. split; [reflexivity|]. intros t Et. congruence. }
      destruct SC as [(a & SC)|(SC & BD)]; rewrite SC.
      - assert (NB : ~ forall s, n = Scalar s -> num s = None).
        { intros B. destruct n as [|s|?|?]; cbn [as_scalar] in SC; try discriminate. rewrite (B s eq_refl) in SC. discriminate. }
        destruct (elements num l) as [x|] eqn:E.
        + split; [discriminate|]. intros (v & [<-|I] & B); [exfalso; exact (NB B)|]. destruct IH as [_ IH].
          assert (X : Some x = None) by (apply IH; exists v; auto). discriminate.
        + split; [|reflexivity]. intros _. destruct (proj1 IH eq_refl) as (v & I & B). exists v. split; [right; exact I|exact B].
      - split; [|reflexivity]. intros _. exists n. split; [left; reflexivity|exact BD]. }
    split.
    + intros [(v & P & C)|H]; [|left; exact H]. right. destruct v as [|s|l|l]; cbn [as_vector] in C; try discriminate.
      destruct (elements num l) as [x|] eqn:E; [discriminate|]. apply EL in E. destruct E as (v & I & B). exists l, v. auto.
    + intros [H|(l & v & P & I & B)]; [right; exact H|]. left. exists (Seq l). split; [exact P|]. cbn [as_vector].
      assert (E : elements num l = None) by (apply EL; exists v; auto). rewrite E. reflexivity.
Qed.
Print Assumptions c181_throws_partial.
Example c181_case : names ["dt"; "x"] /\ at_path (Scalar "10") cfg0 ["dt"].
Proof.
  split; [split; [discriminate|split; [|discriminate]]; repeat constructor; cbn; intuition discriminate|].
  apply at_cons. exists (Scalar "10"). split; [reflexivity|constructor].
Qed.

(** C182, full statement (false of the code): a matrix is delivered from a list
    of exactly as many numbers as it has elements, and refused otherwise. *)
Theorem c182_short_refuted : exists cfg, get_matrix int cfg "m" 3 2 true = None.
Proof. exists cfg0. reflexivity. Qed.
Print Assumptions c182_short_refuted.
Theorem c182_long_refuted : exists cfg, get_matrix int cfg "m" 1 3 true = Some (Found [[1; 2; 3]%Z]).
Proof. exists cfg0. reflexivity. Qed.
Print Assumptions c182_long_refuted.
(** With a list of at least rows*cols numbers the rows are filled in order from
    its start; with a shorter one memory beyond its end is read. *)
Theorem c182_matrix_partial : forall A (num : string -> option A) cfg p rows cols required ts l, names p ->
  at_path (Seq (map Scalar ts)) cfg p -> map num ts = map Some l ->
  ((rows * cols <= length l)%nat -> exists m, get_matrix num cfg (key_of p) rows cols required = Some (Found m) /\
     shape rows cols m /\ concat m = firstn (rows * cols) l) /\
  ((length l < rows * cols)%nat -> get_matrix num cfg (key_of p) rows cols required = None).
Proof.
  intros A num cfg p rows cols required ts l N P M.
  assert (F : Forall2 (fun n a => as_scalar num n = Value a) (map Scalar ts) l).
  { clear P. revert l M. induction ts as [|t ts IH]; intros [|a l] M; try discriminate; [constructor|].
    cbn [map] in M. assert (H1 : num t = Some a) by congruence. assert (H2 : map num ts = map Some l) by congruence.
    cbn [map]. constructor; [cbn [as_scalar]; rewrite H1; reflexivity|exact (IH l H2)]. }
  rewrite (get_matrix_found num cfg p rows cols required _ l N P F). split.
  - intros L. destruct (read_rows l rows cols) as [m|] eqn:E.
    + exists m. split; [reflexivity|]. exact (read_some _ _ _ _ E).
    + exfalso. revert E. apply read_enough. exact L.
  - intros L. rewrite (read_short _ _ _ L). reflexivity.
Qed.
Print Assumptions c182_matrix_partial.
Example c182_case : get_matrix int cfg0 "m" 2 2 true = Some (Found [[1; 2]; [3; 4]]%Z).
Proof. reflexivity. Qed.

(** C183: a matrix written with convert::encode is read back by convert::decode
    and by get, given that single numbers are; a list that is too short is refused
    by decode. *)
Theorem c183_round_trip : forall A (text : A -> string) (num : string -> option A) rows cols m, shape rows cols m ->
  (forall x, In x (concat m) -> num (text x) = Some x) ->
  as_matrix num rows cols (encode text m) = Value m /\
  forall cfg p required, names p -> at_path (encode text m) cfg p -> get_matrix num cfg (key_of p) rows cols required = Some (Found m).
Proof.
  intros A text num rows cols m S RT. pose proof (encoded_all text num (concat m) RT) as F. split.
  - unfold encode, as_matrix. destruct S as [<- FR]. rewrite <- (List.app_nil_r (map _ (concat m))). apply decode_rows_ok; assumption.
  - intros cfg p required N P. rewrite (get_matrix_found num cfg p rows cols required _ _ N P F).
    rewrite <- (List.app_nil_r (concat m)), (read_shape rows cols m [] S). reflexivity.
Qed.
Print Assumptions c183_round_trip.
Theorem c183_short : forall A (num : string -> option A) rows cols ts l, map num ts = map Some l -> (length l < rows * cols)%nat ->
  as_matrix num rows cols (Seq (map Scalar ts)) = BadConversion.
Proof.
  intros A num rows cols ts l M L.
  assert (F : Forall2 (fun n a => as_scalar num n = Value a) (map Scalar ts) l).
  { clear L. revert l M. induction ts as [|t ts IH]; intros [|a l] M; try discriminate; [constructor|].
    cbn [map] in M. assert (H1 : num t = Some a) by congruence. assert (H2 : map num ts = map Some l) by congruence.
    cbn [map]. constructor; [cbn [as_scalar]; rewrite H1; reflexivity|exact (IH l H2)]. }
  unfold as_matrix. apply (rows_short num rows cols _ l F). rewrite (F2_len _ _ _ F). exact L.
Qed.
Print Assumptions c183_short.
Example c183_case : shape 2 3 [[1; -2; 3]; [40; 5; 6]]%Z /\ (forall x, int (dec x) = Some x) /\
  encode dec [[1; -2]]%Z = Seq [Scalar "1"; Scalar "-2"].
Proof.
  split; [split; [reflexivity|repeat constructor]|]. split; [|reflexivity].
  intros x. unfold int. rewrite dec_back. cbn [option_map]. rewrite DecimalZ.of_to. reflexivity.
Qed.
