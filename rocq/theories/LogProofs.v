(** Proofs about writing and replaying a log. *)
From Coq Require Import String ZArith NArith List Bool Lia Arith Sorted.
From Verif Require Import SerializeModel SerializeSpec SerializeProofs UtcTimeModel UtcTimeSpec UtcTimeProofs Float64 QuantizedModel UtcDoubleModel
  LogModel LogSpec.
Import ListNotations.
Local Open Scope string_scope.
Local Open Scope list_scope.
Local Open Scope nat_scope.

(** ** Reading a file that has been cut *)
Section Cut.
Variable dual : list Z -> list Z -> list Z.
Variable junk : list Z.
Notation des := (des dual junk).
Notation read_all := (read_all dual junk).

Lemma read_bytes_eof n old s : eof s = true -> eof (snd (read_bytes n old s)) = true.
Proof. intros E. unfold read_bytes. rewrite E. exact E. Qed.
Lemma des_eof t : forall o s, eof s = true -> eof (snd (des t o s)) = true.
Proof.
  induction t as [p|p r c|p|fs IH|] using ty_rec'; intros o s E.
  - cbn [SerializeModel.des]. pose proof (read_bytes_eof (width p) (enc p (num o)) s E) as H. destruct (read_bytes _ _ s). exact H.
  - cbn [SerializeModel.des]. pose proof (read_bytes_eof (r * c * width p) (encs p (arr o)) s E) as H. destruct (read_bytes _ _ s). exact H.
  - cbn [SerializeModel.des]. pose proof (read_bytes_eof (length (arr o) * width p) (encs p (arr o)) s E) as H. destruct (read_bytes _ _ s). exact H.
  - rewrite des_struct. revert o s E. induction IH as [|(n, u) r P F IHF]; intros o s E; [exact E|]. cbn [des_fields].
    pose proof (P (get n o) s E) as H. cbn [snd] in H. destruct (des u (get n o) s) as (x, s'). apply IHF. exact H.
  - cbn [SerializeModel.des]. pose proof (read_bytes_eof (4 * 8) (encs FP64 [one; 0; 0; 0]%Z) s E) as H. destruct (read_bytes (4 * 8) _ s) as (bq, s1). cbn [snd] in H.
    pose proof (read_bytes_eof (3 * 8) (encs FP64 junk) s1 H) as H2. destruct (read_bytes (3 * 8) _ s1) as (bt, s2). exact H2.
Qed.
Lemma read_all_eof l : forall s, eof s = true -> eof (snd (read_all l s)) = true.
Proof.
  induction l as [|(t, o) r IH]; intros s E; [exact E|]. cbn [SerializeModel.read_all]. pose proof (des_eof t o s E) as H. destruct (des t o s) as (v, s1). cbn [snd] in H.
  specialize (IH s1 H). destruct (read_all r s1). exact IH.
Qed.

(** [f] read [n] bytes; on a shorter prefix it meets the end of the file. *)
Definition reads_n {A} (f : istream -> A * istream) (b : list N) (x : A) (n : nat) : Prop :=
  n <= length b /\ f (mkStream b false) = (x, mkStream (skipn n b) false) /\
  forall m, m <= length b -> (m < n -> eof (snd (f (mkStream (firstn m b) false))) = true) /\
    (n <= m -> f (mkStream (firstn m b) false) = (x, mkStream (firstn (m - n) (skipn n b)) false)).
Lemma skipn_skipn {A} n : forall m (l : list A), skipn m (skipn n l) = skipn (m + n) l.
Proof.
  induction n as [|n IH]; intros m l; [rewrite Nat.add_0_r; reflexivity|]. rewrite Nat.add_succ_r. destruct l as [|a l].
  - rewrite !skipn_nil. reflexivity.
  - cbn [skipn]. apply IH.
Qed.
Lemma skipn_firstn_sub {A} n : forall m (l : list A), n <= m -> skipn n (firstn m l) = firstn (m - n) (skipn n l).
Proof. intros m l H. rewrite skipn_firstn_comm. reflexivity. Qed.
Lemma read_bytes_n n old b x s' : read_bytes n old (mkStream b false) = (x, s') -> eof s' = false -> reads_n (read_bytes n old) b x n /\ rest s' = skipn n b.
Proof.
  unfold read_bytes at 1. cbn [eof rest]. destruct (Nat.leb_spec n (length b)) as [L|L]; intros E F; [|injection E as <- <-; discriminate F].
  injection E as <- <-. split; [|reflexivity]. split; [exact L|]. split.
  - unfold read_bytes. cbn [eof rest]. apply Nat.leb_le in L. rewrite L. reflexivity.
  - intros m M. unfold read_bytes. cbn [eof rest]. rewrite firstn_length, Nat.min_l by exact M. split; intros H.
    + destruct (Nat.leb_spec n m); [lia|]. reflexivity.
    + destruct (Nat.leb_spec n m); [|lia]. rewrite firstn_firstn, Nat.min_l by exact H. rewrite skipn_firstn_sub by exact H. reflexivity.
Qed.
(** Reading one thing and then another. *)
Lemma reads_then {A B C} (f : istream -> A * istream) (g : A -> istream -> B * istream) (h : A -> B -> C) b x n y m :
  (forall x s, eof s = true -> eof (snd (g x s)) = true) ->
  reads_n f b x n -> reads_n (g x) (skipn n b) y m ->
  reads_n (fun s => let (x, s1) := f s in let (y, s2) := g x s1 in (h x y, s2)) b (h x y) (n + m).
Proof.
  intros Ge (L1 & E1 & F1) (L2 & E2 & F2). rewrite skipn_length in L2. split; [lia|]. split.
  - rewrite E1, E2, skipn_skipn. rewrite (Nat.add_comm m n). reflexivity.
  - intros k K. destruct (F1 k K) as (A1 & A2). split; intros H.
    + destruct (Nat.lt_ge_cases k n) as [H1|H1].
      * specialize (A1 H1). destruct (f (mkStream (firstn k b) false)) as (x', s1). cbn [snd] in A1. pose proof (Ge x' s1 A1) as G. destruct (g x' s1). exact G.
      * rewrite (A2 H1). destruct (F2 (k - n)) as (B1 & _); [rewrite skipn_length; lia|]. specialize (B1 ltac:(lia)).
        destruct (g x (mkStream (firstn (k - n) (skipn n b)) false)) as (y', s2). exact B1.
    + rewrite A2 by lia. destruct (F2 (k - n)) as (_ & B2); [rewrite skipn_length; lia|]. rewrite B2 by lia. rewrite skipn_skipn.
      replace (k - (n + m)) with (k - n - m) by lia. rewrite (Nat.add_comm m n). reflexivity.
Qed.
Lemma reads_ext {A} (f g : istream -> A * istream) b x n : (forall s, f s = g s) -> reads_n f b x n -> reads_n g b x n.
Proof. intros E (L & H & F). split; [exact L|]. split; [rewrite <- E; exact H|]. intros m M. rewrite <- E. apply F. exact M. Qed.
Lemma reads_map {A B} (f : istream -> A * istream) (h : A -> B) b x n : reads_n f b x n -> reads_n (fun s => let (a, s') := f s in (h a, s')) b (h x) n.
Proof.
  intros (L & H & F). split; [exact L|]. split; [rewrite H; reflexivity|]. intros m M. destruct (F m M) as (F1 & F2). split; intros K.
  - specialize (F1 K). destruct (f (mkStream (firstn m b) false)). exact F1.
  - rewrite F2 by exact K. reflexivity.
Qed.
Lemma reads_det {A} (f : istream -> A * istream) b x n y s' : reads_n f b x n -> f (mkStream b false) = (y, s') -> y = x /\ s' = mkStream (skipn n b) false.
Proof. intros (_ & E & _) E'. rewrite E in E'. injection E' as <- <-. auto. Qed.
Lemma reads_nil {A} (x : A) b : reads_n (fun s => (x, s)) b x 0.
Proof. split; [lia|]. split; [reflexivity|]. intros m M. split; [lia|]. intros _. rewrite Nat.sub_0_r. reflexivity. Qed.

Lemma des_n t : forall o b x s', des t o (mkStream b false) = (x, s') -> eof s' = false -> exists n, reads_n (des t o) b x n.
Proof.
  induction t as [p|p r c|p|fs IH|] using ty_rec'; intros o b x s' E F.
  - cbn [SerializeModel.des] in E. destruct (read_bytes (width p) (enc p (num o)) (mkStream b false)) as (y, s1) eqn:R. injection E as <- <-.
    exists (width p). exact (reads_map _ (fun b => Num (dec p b)) _ _ _ (proj1 (read_bytes_n _ _ _ _ _ R F))).
  - cbn [SerializeModel.des] in E. destruct (read_bytes (r * c * width p) (encs p (arr o)) (mkStream b false)) as (y, s1) eqn:R. injection E as <- <-.
    eexists. exact (reads_map _ (fun b => Arr (decs p (r * c) b)) _ _ _ (proj1 (read_bytes_n _ _ _ _ _ R F))).
  - cbn [SerializeModel.des] in E. destruct (read_bytes (length (arr o) * width p) (encs p (arr o)) (mkStream b false)) as (y, s1) eqn:R. injection E as <- <-.
    eexists. exact (reads_map _ (fun b => Arr (decs p (length (arr o)) b)) _ _ _ (proj1 (read_bytes_n _ _ _ _ _ R F))).
  - rewrite des_struct in E. assert (G : exists n, reads_n (des_fields dual junk fs o) b x n).
    { revert o b x s' E F. induction IH as [|(nm, u) r P Fr IHF]; intros o b x s' E F.
      - injection E as <- <-. exists 0. apply reads_nil.
      - cbn [des_fields] in E. destruct (des u (get nm o) (mkStream b false)) as (y, s1) eqn:D. cbn [snd] in P.
        assert (F1 : eof s1 = false).
        { destruct (eof s1) eqn:X; [|reflexivity]. rewrite <- F. pose proof (des_eof (Struct r) (set nm y o) s1 X) as H. rewrite des_struct, E in H. symmetry. exact H. }
        destruct (P _ _ _ _ D F1) as (n & R). destruct (reads_det _ _ _ _ _ _ R D) as (_ & ->).
        destruct (IHF _ _ _ _ E F) as (m & R2). exists (n + m).
        pose proof (reads_then (des u (get nm o)) (fun y s => des_fields dual junk r (set nm y o) s) (fun _ z => z) b y n x m) as T. cbv beta in T.
        refine (reads_ext _ _ _ _ _ _ (T _ R R2)).
        + intros s. cbn [des_fields]. destruct (des u (get nm o) s) as (y0, s0). destruct (des_fields dual junk r (set nm y0 o) s0). reflexivity.
        + intros y0 s X. rewrite <- des_struct. apply des_eof. exact X. }
    destruct G as (n & G). exists n. refine (reads_ext _ _ _ _ _ _ G). intros s. symmetry. apply des_struct.
  - cbn [SerializeModel.des] in E. destruct (read_bytes (4 * 8) (encs FP64 [one; 0; 0; 0]%Z) (mkStream b false)) as (bq, s1) eqn:R1.
    destruct (read_bytes (3 * 8) (encs FP64 junk) s1) as (bt, s2) eqn:R2. injection E as <- <-.
    assert (F1 : eof s1 = false).
    { destruct (eof s1) eqn:X; [|reflexivity]. rewrite <- F. pose proof (read_bytes_eof (3 * 8) (encs FP64 junk) s1 X) as H. rewrite R2 in H. symmetry. exact H. }
    destruct (read_bytes_n _ _ _ _ _ R1 F1) as (Q1 & Q2). destruct s1 as (b1, e1). cbn [eof rest] in *. subst e1 b1.
    destruct (read_bytes_n _ _ _ _ _ R2 F) as (Q3 & _). exists (4 * 8 + 3 * 8).
    exact (reads_then (read_bytes (4 * 8) (encs FP64 [one; 0; 0; 0]%Z)) (fun _ s => read_bytes (3 * 8) (encs FP64 junk) s)
      (fun bq bt => Obj [("r_", Obj [("arr_", Arr (decs FP64 4 bq))]); ("d_", Obj [("arr_", Arr (dual (decs FP64 4 bq) (decs FP64 3 bt)))])])
      b bq _ bt _ (fun _ => read_bytes_eof _ _) Q1 Q3).
Qed.
Lemma read_all_n l : forall b x s', read_all l (mkStream b false) = (x, s') -> eof s' = false -> exists n, reads_n (read_all l) b x n.
Proof.
  induction l as [|(t, o) r IH]; intros b x s' E F.
  - injection E as <- <-. exists 0. apply reads_nil.
  - cbn [SerializeModel.read_all] in E. destruct (des t o (mkStream b false)) as (v, s1) eqn:D. destruct (read_all r s1) as (vs, s2) eqn:R. injection E as <- <-.
    assert (F1 : eof s1 = false).
    { destruct (eof s1) eqn:X; [|reflexivity]. rewrite <- F. pose proof (read_all_eof r s1 X) as H. rewrite R in H. symmetry. exact H. }
    destruct (des_n t o b v s1 D F1) as (n & R1). destruct (reads_det _ _ _ _ _ _ R1 D) as (_ & ->).
    destruct (IH _ _ _ R F) as (m & R2). exists (n + m).
    exact (reads_then (des t o) (fun _ s => read_all r s) cons b v n vs m (fun _ => read_all_eof r) R1 R2).
Qed.
End Cut.

(** ** Times *)
Definition tlt (a b : utc) : Prop := (sec a < sec b \/ sec a = sec b /\ nsec a < nsec b)%Z.
Lemma lt_tlt a b : lt a b = true <-> tlt a b.
Proof. unfold lt, tlt, Z.gtb, Z.ltb. destruct (Z.compare_spec (sec a) (sec b)); destruct (Z.compare_spec (nsec a) (nsec b)); intuition (try discriminate; lia). Qed.
Lemma lt_false a b : lt a b = false <-> ~ tlt a b.
Proof. rewrite <- lt_tlt. destruct (lt a b); intuition discriminate. Qed.
Lemma stamp_before_max t : stamp_ok t -> lt t MAX_TIME = true.
Proof. intros (_ & H). apply lt_tlt. left. cbn [sec MAX_TIME]. lia. Qed.

Section Log.
Variable translation dual : list Z -> list Z -> list Z.
Variable junk : list Z.
Hypothesis translation_ok : forall r d, length (translation r d) = 3 /\ Forall (in_range FP64) (translation r d).
Hypothesis dual_ok : forall q t, length (dual q t) = 4 /\ Forall (in_range FP64) (dual q t).
Notation readStamp := (readStamp dual junk).
Notation get_record := (get_record dual junk).
Notation read_all := (read_all dual junk).
Notation des := (des dual junk).
Notation same_record := (same_record translation dual).

Lemma Forall2_len {A B} (R : A -> B -> Prop) l l' : Forall2 R l l' -> length l = length l'.
Proof. induction 1; cbn [length]; congruence. Qed.
(** ** One record *)
Lemma read_record ts data r : fits ts data -> exists vs, read_all ts (mkStream (log_all translation data ++ r) false) = (vs, mkStream r false) /\
  Forall2 (fun tv v => copy_of translation dual (fst tv) v (snd tv)) data vs.
Proof.
  intros (args & E1 & E2 & T1 & T2 & Sz). revert ts data r E1 E2 T1 T2 Sz.
  induction args as [|a args IH]; intros [|(t1, o) ts] [|(t2, v) data] r E1 E2 T1 T2 Sz; try discriminate.
  - exists []. split; [reflexivity|constructor].
  - cbn [map fst] in *. assert (t1 = arg_ty a) by congruence. assert (t2 = arg_ty a) by congruence. subst.
    inversion T1; subst. inversion T2; subst. cbn [combine] in Sz. inversion Sz; subst. cbn [fst snd] in *.
    cbn [SerializeModel.read_all log_all]. rewrite <- app_assoc.
    destruct (round_trip translation dual junk translation_ok dual_ok (arg_ty a) (arg_wf a) v o (log_all translation data ++ r)) as (o' & D & C & _); [assumption..|].
    rewrite D. destruct (IH ts data r) as (vs & D' & C'); [congruence|congruence|assumption..|]. rewrite D'.
    exists (o' :: vs). split; [reflexivity|]. constructor; assumption.
Qed.
Lemma enc64_range z : in_range INT64 z -> dec INT64 (enc INT64 z) = z.
Proof. apply dec_enc. Qed.
Lemma stamp_ser t : ser translation tUTC (utc_value t) = enc INT64 (sec t) ++ enc INT64 (nsec t).
Proof. unfold utc_value. rewrite <- (app_nil_r (enc INT64 (nsec t))). reflexivity. Qed.
Lemma stamp_len t : length (ser translation tUTC (utc_value t)) = 16.
Proof. rewrite stamp_ser, app_length, !enc_length. reflexivity. Qed.
Lemma stamp_range t : stamp_ok t -> in_range INT64 (sec t) /\ in_range INT64 (nsec t).
Proof. intros (N & H). unfold normal in N. cbn [in_range bits]. change (64 - 1)%Z with 63%Z. lia. Qed.

(** Reading a stamp. *)
Lemma readStamp_full mk k t b nx : stamp_ok t ->
  readStamp (mkS mk k (mkStream (ser translation tUTC (utc_value t) ++ b) false) nx) = mkS mk k (mkStream b false) t.
Proof.
  intros Ok. destruct (stamp_range t Ok) as (R1 & R2). rewrite stamp_ser, <- app_assoc. unfold LogModel.readStamp. cbn [file next mapkey key].
  cbn [SerializeModel.des]. rewrite read_exact by apply enc_length. rewrite read_exact by apply enc_length. cbn [num eof].
  rewrite !enc64_range by assumption. destruct t; reflexivity.
Qed.
Lemma readStamp_eof s : eof (file s) = true -> next (readStamp s) = MAX_TIME /\ mapkey (readStamp s) = mapkey s /\ key (readStamp s) = key s.
Proof.
  intros E. unfold LogModel.readStamp. pose proof (des_eof dual junk (Prim INT64) (Num (sec (next s))) (file s) E) as H1.
  destruct (des (Prim INT64) (Num (sec (next s))) (file s)) as (a, f1). cbn [snd] in H1.
  pose proof (des_eof dual junk (Prim INT64) (Num (nsec (next s))) f1 H1) as H2.
  destruct (des (Prim INT64) (Num (nsec (next s))) f1) as (b, f2). cbn [snd] in H2. cbn [next mapkey key]. rewrite H2. auto.
Qed.
Lemma readStamp_short mk k b nx : length b < 16 -> next (readStamp (mkS mk k (mkStream b false) nx)) = MAX_TIME.
Proof.
  intros L. unfold LogModel.readStamp. cbn [file next mapkey key SerializeModel.des num]. unfold read_bytes at 1. cbn [eof rest width].
  destruct (Nat.leb_spec 8 (length b)) as [L1|L1].
  - unfold read_bytes. cbn [eof rest]. rewrite skipn_length. destruct (Nat.leb_spec 8 (length b - 8)); [lia|]. reflexivity.
  - unfold read_bytes. cbn [eof rest]. reflexivity.
Qed.

(** ** What a stream will deliver *)
Section Replay.
Variable cbs : Z -> option (list (ty * value)).
Inductive content : stream -> list (utc * list value) -> Prop :=
  | c_end s : lt (next s) MAX_TIME = false -> content s []
  | c_rec s ts vs s' r : cbs (key s) = Some ts -> lt (next s) MAX_TIME = true -> get_record ts s = (vs, s') -> content s' r ->
      content s ((next s, vs) :: r).
Lemma max_content s : next s = MAX_TIME -> content s [].
Proof. intros E. apply c_end. rewrite E. apply lt_false. unfold tlt. lia. Qed.
Lemma get_keys ts s vs s' : get_record ts s = (vs, s') -> mapkey s' = mapkey s /\ key s' = key s.
Proof.
  unfold LogModel.get_record. destruct (read_all ts (file s)) as (v, f). intros E. injection E as <- <-. unfold LogModel.readStamp. cbn [next file mapkey key].
  destruct (des (Prim INT64) (Num (sec (next s))) f) as (a, f1). destruct (des (Prim INT64) (Num (nsec (next s))) f1) as (b, f2). split; reflexivity.
Qed.

Definition bytes_of (rs : list (utc * list (ty * value))) : list N :=
  flat_map (fun r => ser translation tUTC (utc_value (fst r)) ++ log_all translation (snd r)) rs.
Lemma bytes_size rs : length (bytes_of rs) = size_of translation rs.
Proof. unfold bytes_of. induction rs as [|r rs IH]; [reflexivity|]. cbn [flat_map size_of]. rewrite !app_length, stamp_len, IH. unfold payload, stamp_bytes. lia. Qed.

(** A stream cut after [n] bytes delivers the complete records and possibly one more,
    if the cut lies in its payload. *)
Lemma cut_content mk k ts rs : cbs k = Some ts -> Forall (fun r => stamp_ok (fst r) /\ fits ts (snd r)) rs -> forall n nx, n <= size_of translation rs ->
  exists c e, content (readStamp (mkS mk k (mkStream (firstn n (bytes_of rs)) false) nx)) (c ++ e) /\
    length c <= length rs /\ Forall2 same_record (firstn (length c) rs) c /\
    size_of translation (firstn (length c) rs) <= n /\
    (forall r, nth_error rs (length c) = Some r -> n < size_of translation (firstn (S (length c)) rs)) /\
    (e = [] \/ exists r vs, nth_error rs (length c) = Some r /\ e = [(fst r, vs)] /\ size_of translation (firstn (length c) rs) + 16 <= n) /\
    (e = [] -> forall r, nth_error rs (length c) = Some r -> n < size_of translation (firstn (length c) rs) + 16).
Proof.
  intros Ck F. induction F as [|(t, data) rs (Ok & Fit) F IH]; intros n nx Ln.
  - cbn [size_of] in Ln. assert (n = 0) by lia. subst n. exists [], []. cbn [app firstn length bytes_of flat_map size_of nth_error].
    split; [apply max_content; apply readStamp_short; cbn; lia|]. split; [lia|]. split; [constructor|]. split; [lia|]. split; [discriminate|]. split; [left; reflexivity|discriminate].
  - cbn [size_of fst snd] in Ln. cbn [fst snd] in *.
    change (bytes_of ((t, data) :: rs)) with ((ser translation tUTC (utc_value t) ++ log_all translation data) ++ bytes_of rs). rewrite <- app_assoc.
    destruct (Nat.lt_ge_cases n 16) as [L16|L16].
    { exists [], []. cbn [app length firstn nth_error].
      split; [apply max_content; apply readStamp_short; rewrite firstn_length; lia|]. split; [lia|]. split; [constructor|]. cbn [size_of]. split; [lia|].
      split; [intros r E; unfold stamp_bytes; lia|]. split; [left; reflexivity|]. intros _ r E. lia. }
    replace (firstn n (ser translation tUTC (utc_value t) ++ log_all translation data ++ bytes_of rs))
      with (ser translation tUTC (utc_value t) ++ firstn (n - 16) (log_all translation data ++ bytes_of rs)).
    2: { rewrite (firstn_app n (ser translation tUTC (utc_value t))), stamp_len. rewrite (firstn_all2 (n := n) (ser translation tUTC (utc_value t))) by (rewrite stamp_len; lia). reflexivity. }
    rewrite readStamp_full by exact Ok.
    destruct (read_record ts data (bytes_of rs) Fit) as (vs & R & Cp).
    destruct (read_all_n dual junk ts _ _ _ R eq_refl) as (p & Rn). destruct (reads_det _ _ _ _ _ _ Rn R) as (_ & Sk). injection Sk as Sk.
    assert (Pp : p = payload translation data).
    { destruct Rn as (Lp & _). apply (f_equal (@length N)) in Sk. rewrite skipn_length in Sk. rewrite app_length in Sk, Lp. unfold payload. lia. }
    destruct Rn as (Lp & _ & Rn). specialize (Rn (n - 16)). destruct Rn as (R1 & R2).
    { rewrite app_length, bytes_size. unfold payload, stamp_bytes in *. lia. }
    destruct (Nat.lt_ge_cases (n - 16) p) as [Lc|Lc].
    + (* the payload is cut *)
      specialize (R1 Lc). destruct (read_all ts (mkStream (firstn (n - 16) (log_all translation data ++ bytes_of rs)) false)) as (vs', f) eqn:Rd. cbn [snd] in R1.
      set (s := mkS mk k (mkStream (firstn (n - 16) (log_all translation data ++ bytes_of rs)) false) t).
      exists [], [(t, vs')]. cbn [app length firstn nth_error].
      split. { change t with (next s) at 1. refine (c_rec s ts vs' (readStamp (mkS mk k f t)) [] _ _ _ _); [exact Ck|apply stamp_before_max; exact Ok|unfold LogModel.get_record; cbn [file s]; rewrite Rd; reflexivity|].
        apply max_content. apply readStamp_eof. exact R1. }
      split; [lia|]. split; [constructor|]. cbn [size_of]. split; [lia|]. split; [intros r E; cbn [firstn size_of snd fst]; unfold stamp_bytes; lia|].
      split; [|discriminate]. right. exists (t, data), vs'. split; [reflexivity|]. split; [reflexivity|lia].
    + (* the record is complete *)
      specialize (R2 Lc). rewrite <- Sk in R2. subst p.
      destruct (IH (n - 16 - payload translation data) t) as (c & e & C & Lc' & C1 & C2 & C3 & C4 & C5); [unfold stamp_bytes in *; lia|].
      set (s := mkS mk k (mkStream (firstn (n - 16) (log_all translation data ++ bytes_of rs)) false) t).
      exists ((t, vs) :: c), e. cbn [app length firstn nth_error size_of snd fst].
      split. { change t with (next s) at 1. refine (c_rec s ts vs _ (c ++ e) _ _ _ C); [exact Ck|apply stamp_before_max; exact Ok|].
        unfold LogModel.get_record. cbn [file s]. rewrite R2. reflexivity. }
      split; [lia|]. split; [constructor; [split; [reflexivity|exact Cp]|exact C1]|]. unfold stamp_bytes in *. split; [lia|].
      split; [intros r E; specialize (C3 r E); cbn [firstn size_of] in C3 |- *; unfold stamp_bytes in *; lia|].
      split; [|intros E r Er; specialize (C5 E r Er); lia].
      destruct C4 as [C4|(r & v & C4 & C6 & C7)]; [left; exact C4|]. right. exists r, v. split; [exact C4|]. split; [exact C6|lia].
Qed.
Lemma size_firstn rs : forall n, size_of translation (firstn n rs) <= size_of translation rs.
Proof. induction rs as [|r rs IH]; intros [|n]; cbn [firstn size_of]; try lia. specialize (IH n). lia. Qed.
Lemma full_content mk k ts rs nx : cbs k = Some ts -> Forall (fun r => stamp_ok (fst r) /\ fits ts (snd r)) rs ->
  exists c, content (readStamp (mkS mk k (mkStream (bytes_of rs) false) nx)) c /\ Forall2 same_record rs c.
Proof.
  intros Ck F. destruct (cut_content mk k ts rs Ck F (size_of translation rs) nx (le_n _)) as (c & e & C & L & C1 & C2 & C3 & C4 & _).
  rewrite <- bytes_size, firstn_all in C.
  assert (Lc : length c = length rs).
  { destruct (Nat.eq_dec (length c) (length rs)) as [E|E]; [exact E|]. exfalso.
    destruct (nth_error rs (length c)) as [r|] eqn:X; [|apply nth_error_None in X; lia]. specialize (C3 r eq_refl). pose proof (size_firstn rs (S (length c))). lia. }
  exists c. assert (e = []).
  { destruct C4 as [ -> |(r & v & X & _)]; [reflexivity|]. exfalso. rewrite Lc in X.
    assert (Y : nth_error rs (length rs) = None) by (apply nth_error_None; lia). congruence. }
  subst e. rewrite app_nil_r in C. split; [exact C|]. rewrite Lc, firstn_all in C1. exact C1.
Qed.

(** ** The merge *)
Lemma scan_ok : forall l i m b m' b', scan i l m b = (m', b') ->
  (b' = b /\ m' = m /\ Forall (fun s => ~ tlt (next s) m) l) \/
  (exists j s, b' = Some (i + j) /\ nth_error l j = Some s /\ next s = m' /\ tlt m' m /\ Forall (fun s => ~ tlt (next s) m') l).
Proof.
  clear translation_ok dual_ok cbs translation dual junk.
  induction l as [|s l IH]; intros i m b m' b' E; cbn [scan] in E.
  - injection E as <- <-. left. auto.
  - destruct (lt (next s) m) eqn:L.
    + apply lt_tlt in L. apply IH in E as [(-> & -> & F)|(j & s' & -> & Nt & Ns & T & F)].
      * right. exists 0, s. split; [f_equal; lia|]. split; [reflexivity|]. split; [reflexivity|]. split; [exact L|].
        constructor; [unfold tlt; lia|exact F].
      * right. exists (S j), s'. split; [f_equal; lia|]. split; [exact Nt|]. split; [exact Ns|]. split; [unfold tlt in *; lia|].
        constructor; [unfold tlt in *; lia|exact F].
    + apply lt_false in L. apply IH in E as [(-> & -> & F)|(j & s' & -> & Nt & Ns & T & F)].
      * left. split; [reflexivity|]. split; [reflexivity|]. constructor; assumption.
      * right. exists (S j), s'. split; [f_equal; lia|]. split; [exact Nt|]. split; [exact Ns|]. split; [exact T|].
        constructor; [unfold tlt in *; lia|exact F].
Qed.

(** Records taken one by one from the front of the streams, each time one with the
    earliest stamp. *)
Inductive picks (ks : list Z) : list (list (utc * list value)) -> list (Z * utc * list value) -> list (list (utc * list value)) -> Prop :=
  | p_nil cs : picks ks cs [] cs
  | p_cons cs i k r c new cs' : nth_error cs i = Some (r :: c) -> nth_error ks i = Some k ->
      (forall x c', In (x :: c') cs -> ~ tlt (fst x) (fst r)) -> picks ks (replace i c cs) new cs' -> picks ks cs ((k, fst r, snd r) :: new) cs'.
Definition total (cs : list (list (utc * list value))) : nat := fold_right (fun c n => length c + n) 0 cs.
Lemma total_replace : forall i cs r c, nth_error cs i = Some (r :: c) -> S (total (replace i c cs)) = total cs.
Proof.
  induction i as [|i IH]; intros [|d cs] r c E; try discriminate; cbn [nth_error] in E.
  - injection E as ->. cbn [replace total fold_right length]. reflexivity.
  - cbn [replace]. specialize (IH cs r c E). unfold total in *. cbn [fold_right]. lia.
Qed.
Lemma Forall2_nth {A B} (R : A -> B -> Prop) : forall l l' i a, Forall2 R l l' -> nth_error l i = Some a -> exists b, nth_error l' i = Some b /\ R a b.
Proof.
  intros l l' i a F. revert i. induction F as [|x y l l' H F IH]; intros [|i] E; try discriminate; cbn [nth_error] in *.
  - injection E as ->. eauto.
  - apply IH. exact E.
Qed.
Lemma Forall2_replace {A B} (R : A -> B -> Prop) : forall l l' i a b, Forall2 R l l' -> R a b -> Forall2 R (replace i a l) (replace i b l').
Proof.
  intros l l' i a b F H. revert i. induction F as [|x y l l' H' F IH]; intros [|i]; cbn [replace]; constructor; auto.
Qed.
Lemma map_replace {A B} (f : A -> B) : forall l i s s', nth_error l i = Some s -> f s' = f s -> map f (replace i s' l) = map f l.
Proof.
  induction l as [|x l IH]; intros [|i] s s' E H; try discriminate; cbn [nth_error replace map] in *.
  - injection E as ->. rewrite H. reflexivity.
  - rewrite (IH i s s' E H). reflexivity.
Qed.

Lemma messages_app a b : messages (a ++ b) = messages a ++ messages b.
Proof. induction a as [|[i t|k t v] a IH]; cbn [app messages]; rewrite ?IH; reflexivity. Qed.
Lemma maintain_messages : forall ms i t tr ms' tr' ok, maintain i ms t tr = Some (ms', tr', ok) -> messages tr' = messages tr.
Proof.
  induction ms as [|m ms IH]; intros i t tr ms' tr' ok E; cbn [maintain] in E.
  - injection E as <- <- <-. reflexivity.
  - destruct (tq_ge t (next_call m)) as [[|]|]; cbn [bind] in E; [| |discriminate].
    + destruct (add_double (next_call m) (period m)) as [n|]; cbn [bind] in E; [|discriminate].
      assert (X : messages (tr ++ [Maint i t]) = messages tr) by (rewrite messages_app, app_nil_r; reflexivity).
      destruct (act m tr t).
      * destruct (maintain (S i) ms t (tr ++ [Maint i t])) as [((a, b), c)|] eqn:M; cbn [bind fst snd] in E; [|discriminate].
        injection E as <- <- <-. rewrite (IH _ _ _ _ _ _ M). exact X.
      * injection E as <- <- <-. exact X.
    + destruct (maintain (S i) ms t tr) as [((a, b), c)|] eqn:M; cbn [bind fst snd] in E; [|discriminate].
      injection E as <- <- <-. apply (IH _ _ _ _ _ _ M).
Qed.

Definition all_empty (cs : list (list (utc * list value))) : Prop := Forall (fun c => c = []) cs.
Lemma loop_picks : forall fuel l cs ms tr, Forall2 content l cs -> total cs < fuel ->
  match loop dual junk fuel cbs l ms tr with
  | OutOfFuel _ => False
  | Undefined => ms <> []
  | Finished tr' => exists new cs', messages tr' = messages tr ++ new /\ picks (map key l) cs new cs' /\ all_empty cs'
  | Stopped tr' => exists new cs', messages tr' = messages tr ++ new /\ picks (map key l) cs new cs'
  end.
Proof.
  induction fuel as [|fuel IH]; intros l cs ms tr F Tt; [lia|]. cbn [loop].
  destruct (scan 0 l MAX_TIME None) as (m, b) eqn:Sc. apply scan_ok in Sc as [(-> & -> & Fm)|(j & s & -> & Nt & Ns & T & Fm)].
  - exists [], cs. rewrite app_nil_r. split; [reflexivity|]. split; [constructor|].
    clear - F Fm. induction F as [|s c l cs C F IH]; [constructor|]. inversion Fm; subst. constructor; [|apply IH; assumption].
    inversion C; subst; [reflexivity|]. match goal with H : lt (next s) _ = true |- _ => apply lt_tlt in H; contradiction end.
  - cbn [Nat.add]. replace (UtcTimeModel.eq m MAX_TIME) with false.
    2: { symmetry. unfold UtcTimeModel.eq. apply andb_false_iff. unfold tlt in T. destruct T as [T|(T1 & T2)]; [left|right]; apply Z.eqb_neq; lia. }
    destruct (maintain 0 ms m tr) as [((ms', tr'), ok)|] eqn:M.
    2: { intros ->. discriminate M. }
    pose proof (maintain_messages _ _ _ _ _ _ _ M) as Mm.
    destruct ok.
    2: { exists [], cs. rewrite app_nil_r. split; [exact Mm|constructor]. }
    rewrite Nt. destruct (Forall2_nth _ _ _ _ _ F Nt) as (c & Nc & C).
    inversion C as [s0 E E1 E2|s0 ts vs s' r Cb L G C' E1 E2]; subst.
    { apply lt_false in E. contradiction. }
    rewrite Cb, G. destruct (get_keys ts s vs s' G) as (_ & K).
    assert (F' : Forall2 content (replace j s' l) (replace j r cs)) by (apply Forall2_replace; assumption).
    assert (Tt' : total (replace j r cs) < fuel) by (pose proof (total_replace j cs _ r Nc); lia).
    specialize (IH (replace j s' l) (replace j r cs) ms' (tr' ++ [Msg (key s) (next s) vs]) F' Tt').
    assert (Mn : ms' <> [] -> ms <> []).
    { intros H ->. cbn [maintain] in M. apply H. congruence. }
    assert (P : forall new cs', picks (map key (replace j s' l)) (replace j r cs) new cs' -> picks (map key l) cs ((key s, next s, vs) :: new) cs').
    { intros new cs' P. rewrite (map_replace key l j s s' Nt K) in P.
      refine (p_cons (map key l) cs j (key s) (next s, vs) r new cs' Nc _ _ P); [rewrite nth_error_map, Nt; reflexivity|].
      intros x c' I. cbn [fst].
      assert (Q : exists s1, In s1 l /\ content s1 (x :: c')).
      { clear - F I. induction F as [|a b l cs Cab F IHF]; [destruct I|]. destruct I as [ -> |I]; [exists a; split; [left; reflexivity|exact Cab]|].
        destruct (IHF I) as (s1 & I1 & C1). exists s1. split; [right; exact I1|exact C1]. }
      destruct Q as (s1 & I1 & C1). inversion C1; subst. cbn [fst]. rewrite Forall_forall in Fm. apply Fm. exact I1. }
    destruct (loop dual junk fuel cbs (replace j s' l) ms' (tr' ++ [Msg (key s) (next s) vs])) as [t|t| |t].
    + destruct IH as (new & cs' & E & Pk & Em). exists ((key s, next s, vs) :: new), cs'. rewrite E, messages_app, Mm. cbn [messages].
      rewrite <- app_assoc. split; [reflexivity|]. split; [apply P; exact Pk|exact Em].
    + destruct IH as (new & cs' & E & Pk). exists ((key s, next s, vs) :: new), cs'. rewrite E, messages_app, Mm. cbn [messages].
      rewrite <- app_assoc. split; [reflexivity|]. apply P; exact Pk.
    + apply Mn. exact IH.
    + exact IH.
Qed.

Fixpoint by_key (k : Z) (l : list (Z * utc * list value)) : list (utc * list value) :=
  match l with [] => [] | (k', t, v) :: r => if (k' =? k)%Z then (t, v) :: by_key k r else by_key k r end.
Lemma delivered_messages k tr : delivered k tr = by_key k (messages tr).
Proof. induction tr as [|[i t|k' t v] tr IH]; cbn [delivered messages by_key]; [reflexivity|exact IH|]. destruct (k' =? k)%Z; rewrite IH; reflexivity. Qed.

Lemma nth_replace_same {A} : forall i (x : A) l y, nth_error l i = Some y -> nth_error (replace i x l) i = Some x.
Proof. induction i as [|i IH]; intros x [|z l] y E; try discriminate; cbn [replace nth_error] in *; [reflexivity|]. apply (IH x l y E). Qed.
Lemma nth_replace_other {A} : forall i j (x : A) l, i <> j -> nth_error (replace i x l) j = nth_error l j.
Proof. induction i as [|i IH]; intros [|j] x [|z l] E; cbn [replace nth_error]; try reflexivity; try congruence. apply IH. congruence. Qed.
Lemma picks_split ks cs new cs' : NoDup ks -> picks ks cs new cs' -> forall i k, nth_error ks i = Some k ->
  forall c, nth_error cs i = Some c -> exists c', nth_error cs' i = Some c' /\ c = by_key k new ++ c'.
Proof.
  intros ND P. induction P as [cs|cs i0 k0 r c0 new cs' E1 E2 Mn P IH]; intros i k Ek c Ec.
  - exists c. split; [exact Ec|reflexivity].
  - cbn [by_key]. destruct (Nat.eq_dec i0 i) as [->|Ne].
    + assert (k0 = k) by congruence. subst k0. assert (c = r :: c0) by congruence. subst c.
      destruct (IH i k Ek c0) as (c' & Ec' & X); [apply (nth_replace_same i c0 cs _ E1)|]. exists c'. split; [exact Ec'|].
      rewrite Z.eqb_refl. cbn [app]. rewrite <- X. destruct r; reflexivity.
    + destruct (Z.eqb_spec k0 k) as [->|_].
      * exfalso. apply Ne. rewrite NoDup_nth_error in ND. apply ND; [apply nth_error_Some; congruence|congruence].
      * apply IH; [exact Ek|]. rewrite nth_replace_other by exact Ne. exact Ec.
Qed.
Lemma picks_keys ks cs new cs' : picks ks cs new cs' -> forall k, ~ In k ks -> by_key k new = [].
Proof.
  induction 1 as [cs|cs i0 k0 r c0 new cs' E1 E2 Mn P IH]; intros k N; [reflexivity|]. cbn [by_key].
  destruct (Z.eqb_spec k0 k) as [->|_]; [exfalso; apply N; apply (nth_error_In _ _ E2)|]. apply IH. exact N.
Qed.

(** Order: if every stream is in order, so is the merge. *)
Definition tle (a b : utc) : Prop := ~ tlt b a.
Definition sorted_stream (c : list (utc * list value)) : Prop := StronglySorted tle (map fst c).
Lemma in_replace {A} : forall i (x : A) l y, In y (replace i x l) -> y = x \/ In y l.
Proof.
  induction i as [|i IH]; intros x [|z l] y I; cbn [replace] in I; try (destruct I; fail).
  - destruct I as [<-|I]; [left; reflexivity|right; right; exact I].
  - destruct I as [<-|I]; [right; left; reflexivity|]. destruct (IH x l y I) as [H|H]; [left; exact H|right; right; exact H].
Qed.
Lemma picks_bound ks cs new cs' : picks ks cs new cs' -> forall b, (forall c, In c cs -> Forall (fun x => tle b (fst x)) c) ->
  Forall (fun m => tle b (snd (fst m))) new.
Proof.
  induction 1 as [cs|cs i0 k0 r c0 new cs' E1 E2 Mn P IH]; intros b B; constructor.
  - cbn [fst snd]. apply nth_error_In in E1. specialize (B _ E1). inversion B; subst. assumption.
  - apply IH. intros c I. apply in_replace in I as [->|I]; [|apply B; exact I]. apply nth_error_In in E1. specialize (B _ E1). inversion B; subst. assumption.
Qed.
Lemma picks_sorted ks cs new cs' : picks ks cs new cs' -> (forall c, In c cs -> sorted_stream c) -> StronglySorted tle (map (fun m => snd (fst m)) new).
Proof.
  clear translation_ok dual_ok cbs.
  induction 1 as [cs|cs i0 k0 r c0 new cs' E1 E2 Mn P IH]; intros Srt; [constructor|]. cbn [map fst snd].
  pose proof (nth_error_In _ _ E1) as I1. pose proof (Srt _ I1) as S1. unfold sorted_stream in S1. cbn [map] in S1. inversion S1; subst.
  assert (Srt' : forall c, In c (replace i0 c0 cs) -> sorted_stream c).
  { intros c I. apply in_replace in I as [->|I]; [assumption|apply Srt; exact I]. }
  constructor; [apply IH; exact Srt'|].
  rewrite Forall_map. refine (picks_bound _ _ _ _ P (fst r) _). intros c I. apply in_replace in I as [->|I].
  - rewrite Forall_map in H2. exact H2.
  - specialize (Srt c I). destruct c as [|x c]; [constructor|]. unfold sorted_stream in Srt. cbn [map] in Srt. inversion Srt; subst.
    assert (X : tle (fst r) (fst x)) by (intros Y; apply (Mn x c I); exact Y).
    constructor; [exact X|]. rewrite Forall_map in H4. apply (Forall_impl _ (P := fun y => tle (fst x) (fst y))); [|exact H4].
    intros y Hy. unfold tle, tlt in Hy, X |- *. lia.
Qed.
End Replay.


(** ** Writing *)
Lemma logged_app k a b : logged k (a ++ b) = logged k a ++ logged k b.
Proof.
  induction a as [|[k'|k' t d] a IH]; cbn [app logged]; [reflexivity|exact IH|]. destruct (k' =? k)%Z; cbn [app]; rewrite IH; reflexivity.
Qed.
Lemma logged_in k t data ops : In (t, data) (logged k ops) -> In (Log k t data) ops.
Proof.
  induction ops as [|[k'|k' t' d'] ops IH]; cbn [logged]; intros I; [destruct I|right; auto|]. destruct (Z.eqb_spec k' k) as [->|]; [|right; auto].
  destruct I as [E|I]; [left; congruence|right; auto].
Qed.
Definition winv (ops : list wop) (l : list wstream) : Prop :=
  NoDup (map w_key l) /\ Forall (fun s => w_bytes s = bytes_of (logged (w_key s) ops) /\ w_num s = Z.of_nat (length (logged (w_key s) ops))) l /\
  forall k, logged k ops <> [] -> In k (map w_key l).
Lemma w_find_in k l s : w_find k l = Some s -> In s l /\ w_key s = k.
Proof.
  induction l as [|x l IH]; cbn [w_find]; [discriminate|]. destruct (Z.eqb_spec (w_key x) k) as [E|].
  - intros X. injection X as <-. split; [left; reflexivity|exact E].
  - intros X. destruct (IH X) as (I & E). split; [right; exact I|exact E].
Qed.
Lemma w_find_none k l : w_find k l = None -> ~ In k (map w_key l).
Proof.
  induction l as [|x l IH]; cbn [w_find map]; [auto|]. destruct (Z.eqb_spec (w_key x) k) as [E|N]; [discriminate|]. intros X [I|I]; [contradiction|]. apply (IH X I).
Qed.
Lemma w_update_keys s' : forall l, map w_key (w_update s' l) = map w_key l.
Proof. induction l as [|x l IH]; [reflexivity|]. cbn [w_update]. destruct (Z.eqb_spec (w_key x) (w_key s')) as [E|]; cbn [map]; [rewrite E; reflexivity|rewrite IH; reflexivity]. Qed.
Lemma w_update_in s' : forall l x, NoDup (map w_key l) -> In x (w_update s' l) -> x = s' \/ In x l /\ w_key x <> w_key s'.
Proof.
  induction l as [|y l IH]; intros x ND I; [destruct I|]. cbn [w_update] in I. cbn [map] in ND. inversion ND; subst.
  destruct (Z.eqb_spec (w_key y) (w_key s')) as [E|N].
  - destruct I as [<-|I]; [left; reflexivity|]. right. split; [right; exact I|]. intros X. apply H1. rewrite E, <- X. apply in_map. exact I.
  - destruct I as [<-|I]; [right; split; [left; reflexivity|exact N]|]. destruct (IH x H2 I) as [H|(H & H')]; [left; exact H|right; split; [right; exact H|exact H']].
Qed.
Lemma bytes_app a b : bytes_of (a ++ b) = bytes_of a ++ bytes_of b.
Proof. unfold bytes_of. apply flat_map_app. Qed.
Lemma wstep_inv ops op l l' : winv ops l -> wstep translation op l = Some l' -> winv (ops ++ [op]) l'.
Proof.
  intros (ND & F & K) E. destruct op as [k|k t data]; cbn [wstep] in E.
  - unfold initStream in E. destruct (w_find k l) eqn:W; [discriminate|]. injection E as <-. apply w_find_none in W.
    assert (L0 : forall k', logged k' (ops ++ [Init k]) = logged k' ops) by (intros k'; rewrite logged_app; cbn [logged]; apply app_nil_r).
    split; [|split].
    + rewrite map_app. cbn [map w_key]. clear - ND W. induction (map w_key l) as [|x m IH]; cbn [app].
      * constructor; [intros []|constructor].
      * inversion ND; subst. constructor; [|apply IH; [assumption|intros X; apply W; right; exact X]].
        intros X. apply in_app_or in X as [X|[X|[]]]; [contradiction|]. apply W. left. congruence.
    + apply Forall_app. split; [apply (Forall_impl _ (P := fun s => w_bytes s = bytes_of (logged (w_key s) ops) /\ w_num s = Z.of_nat (length (logged (w_key s) ops)))); [|exact F]|].
      * intros s H. rewrite L0. exact H.
      * constructor; [|constructor]. cbn [w_key w_bytes w_num]. rewrite L0. destruct (logged k ops) eqn:X; [split; reflexivity|]. exfalso. apply W. apply K. congruence.
    + intros k' H. rewrite L0 in H. rewrite map_app. apply in_or_app. left. apply K. exact H.
  - unfold log in E. destruct (w_find k l) as [s|] eqn:W; [|discriminate]. injection E as <-. apply w_find_in in W as (Is & Ks).
    assert (L0 : forall k', logged k' (ops ++ [Log k t data]) = logged k' ops ++ (if (k =? k')%Z then [(t, data)] else [])).
    { intros k'. rewrite logged_app. cbn [logged]. destruct (k =? k')%Z; reflexivity. }
    split; [|split].
    + rewrite w_update_keys. exact ND.
    + apply Forall_forall. intros x I. rewrite Forall_forall in F. apply w_update_in in I as [->|(I & N)]; [| |exact ND].
      * cbn [w_key w_bytes w_num]. rewrite L0, Z.eqb_refl. destruct (F s Is) as (F1 & F2). rewrite Ks in F1, F2. rewrite bytes_app, app_length, F1, F2. cbn [length].
        split; [|lia]. unfold bytes_of at 3. cbn [flat_map fst snd]. rewrite app_nil_r. reflexivity.
      * cbn [w_key] in N. rewrite L0. destruct (Z.eqb_spec k (w_key x)) as [E|_]; [congruence|]. rewrite app_nil_r. apply F. exact I.
    + intros k' H. rewrite w_update_keys. rewrite L0 in H. destruct (Z.eqb_spec k k') as [E|_]; [rewrite <- E, <- Ks; apply in_map; exact Is|].
      rewrite app_nil_r in H. apply K. exact H.
Qed.
Lemma wrun_inv : forall ops pre l l', winv pre l -> wrun translation ops l = Some l' -> winv (pre ++ ops) l'.
Proof.
  induction ops as [|op ops IH]; intros pre l l' I E; cbn [wrun] in E.
  - injection E as <-. rewrite app_nil_r. exact I.
  - destruct (wstep translation op l) as [l1|] eqn:W; [|discriminate]. replace (pre ++ op :: ops) with ((pre ++ [op]) ++ ops) by (rewrite <- app_assoc; reflexivity).
    apply (IH _ l1); [|exact E]. apply (wstep_inv pre op l l1 I W).
Qed.
Lemma wrun_ok ops l : wrun translation ops [] = Some l -> winv ops l.
Proof. intros E. apply (wrun_inv ops [] [] l); [|exact E]. split; [constructor|]. split; [constructor|]. intros k H. exfalso. apply H. reflexivity. Qed.

(** ** Writing, then reading *)
Notation opened := (opened dual junk).
Notation cut_records := (cut_records translation dual).
Lemma cut_content' cbs mk k ts rs n nx : cbs k = Some ts -> Forall (fun r => stamp_ok (fst r) /\ fits ts (snd r)) rs ->
  exists c, content cbs (readStamp (mkS mk k (mkStream (firstn n (bytes_of rs)) false) nx)) c /\ cut_records n rs c.
Proof.
  intros Ck F. destruct (Nat.le_gt_cases n (size_of translation rs)) as [L|L].
  - destruct (cut_content cbs mk k ts rs Ck F n nx L) as (c & e & C & H1 & H2 & H3 & H4 & H5 & H6). exists (c ++ e). split; [exact C|]. exists c, e.
    split; [reflexivity|]. split; [exact H1|]. split; [exact H2|]. split; [exact H3|]. split.
    + intros Lc. destruct (nth_error rs (length c)) as [r|] eqn:X; [|apply nth_error_None in X; lia]. apply (H4 r eq_refl).
    + split; [exact H5|]. intros E Lc. destruct (nth_error rs (length c)) as [r|] eqn:X; [|apply nth_error_None in X; lia]. apply (H6 E r eq_refl).
  - destruct (full_content cbs mk k ts rs nx Ck F) as (c & C & S). exists c. rewrite firstn_all2 by (rewrite bytes_size; lia). split; [exact C|]. exists c, [].
    pose proof (Forall2_len _ _ _ S) as Ln. rewrite app_nil_r, <- Ln, firstn_all. split; [reflexivity|]. split; [lia|]. split; [exact S|]. split; [lia|]. split; [lia|].
    split; [left; reflexivity|lia].
Qed.
Definition subscribed (cbs : Z -> option (list (ty * value))) (k : Z) : bool := match cbs k with Some _ => true | None => false end.
Lemma opened_mapkey cut l : map mapkey (opened cut l) = map w_key l /\ Forall (fun s => key s = mapkey s) (opened cut l).
Proof.
  unfold opened. split.
  - rewrite map_map. apply map_ext. intros s. cbn [open_stream]. unfold LogModel.readStamp. cbn [file next mapkey key].
    destruct (des (Prim INT64) (Num (sec (mkUtc 0 0))) _) as (a, f1). destruct (des (Prim INT64) (Num (nsec (mkUtc 0 0))) f1). reflexivity.
  - apply Forall_forall. intros s I. apply in_map_iff in I as (w & <- & _). cbn [open_stream]. unfold LogModel.readStamp. cbn [file next mapkey key].
    destruct (des (Prim INT64) (Num (sec (mkUtc 0 0))) _) as (a, f1). destruct (des (Prim INT64) (Num (nsec (mkUtc 0 0))) f1). reflexivity.
Qed.
Lemma filter_opened cbs cut l : filter (fun s => match cbs (mapkey s) with Some _ => true | None => false end) (opened cut l) =
  opened cut (filter (fun s => subscribed cbs (w_key s)) l).
Proof.
  induction l as [|s l IH]; [reflexivity|]. change (opened cut (s :: l)) with (open_stream dual junk 0 (w_key s) (Some (w_key s, firstn (cut (w_key s)) (w_bytes s))) :: opened cut l).
  cbn [filter]. replace (mapkey (open_stream dual junk 0 (w_key s) (Some (w_key s, firstn (cut (w_key s)) (w_bytes s))))) with (w_key s).
  2: { cbn [open_stream]. unfold LogModel.readStamp. cbn [file next mapkey key].
    destruct (des (Prim INT64) (Num (sec (mkUtc 0 0))) _) as (a, f1). destruct (des (Prim INT64) (Num (nsec (mkUtc 0 0))) f1). reflexivity. }
  fold (subscribed cbs (w_key s)). destruct (subscribed cbs (w_key s)); [|exact IH]. rewrite IH. reflexivity.
Qed.
Lemma contents_exist cbs ops cut l : records_ok cbs ops -> (forall s, In s l -> w_bytes s = bytes_of (logged (w_key s) ops)) -> (forall s, In s l -> subscribed cbs (w_key s) = true) ->
  exists cs, Forall2 (content cbs) (opened cut l) cs /\ Forall2 (fun s c => cut_records (cut (w_key s)) (logged (w_key s) ops) c) l cs.
Proof.
  intros Ok B Sb. induction l as [|s l IH]; [exists []; split; constructor|].
  destruct IH as (cs & F1 & F2); [intros x I; apply B; right; exact I|intros x I; apply Sb; right; exact I|].
  assert (Ss := Sb s (or_introl eq_refl)). unfold subscribed in Ss. destruct (cbs (w_key s)) as [ts|] eqn:Ck; [|discriminate].
  destruct (cut_content' cbs (w_key s) (w_key s) ts (logged (w_key s) ops) (cut (w_key s)) (mkUtc 0 0) Ck) as (c & C & R).
  { apply Forall_forall. intros (t, data) I. apply logged_in in I. exact (Ok _ _ _ _ I Ck). }
  exists (c :: cs). split; constructor; try assumption. rewrite (B s (or_introl eq_refl)). exact C.
Qed.

(** The messages of a replay. *)
Lemma Forall2_nth_r {A B} (R : A -> B -> Prop) l l' : Forall2 R l l' -> forall i b, nth_error l' i = Some b -> exists a, nth_error l i = Some a /\ R a b.
Proof.
  induction 1 as [|x y l l' H F IH]; intros [|i] b E; try discriminate; cbn [nth_error] in *; [injection E as <-; eauto|]. apply IH. exact E.
Qed.
Theorem replay_ok cbs ops l0 l cut ms : wrun translation ops [] = Some l0 -> (forall s, In s l <-> In s l0) -> NoDup (map w_key l) -> records_ok cbs ops ->
  exists n, forall fuel, n <= fuel ->
  match read dual junk fuel cbs (opened cut l) ms with
  | OutOfFuel _ => False
  | Undefined => ms <> []
  | Finished tr => forall k, (cbs k = None -> delivered k tr = []) /\ (cbs k <> None -> exists c, c = delivered k tr /\ (cut_records (cut k) (logged k ops) c))
  | Stopped tr => forall k, (cbs k = None -> delivered k tr = []) /\ (cbs k <> None -> exists c, cut_records (cut k) (logged k ops) c /\ exists r, c = delivered k tr ++ r)
  end /\
  ((forall k, cbs k <> None -> StronglySorted tle (map fst (logged k ops))) ->
   match read dual junk fuel cbs (opened cut l) ms with
   | Finished tr | Stopped tr => StronglySorted tle (map (fun m => snd (fst m)) (messages tr))
   | _ => True
   end).
Proof.
  intros W El ND Ok. apply wrun_ok in W as (_ & Fw & Kw). rewrite Forall_forall in Fw.
  set (ls := filter (fun s => subscribed cbs (w_key s)) l).
  destruct (contents_exist cbs ops cut ls Ok) as (cs & F1 & F2).
  { intros s I. unfold ls in I. apply filter_In in I as (I & _). apply El in I. apply (Fw s I). }
  { intros s I. unfold ls in I. apply filter_In in I as (_ & I). exact I. }
  exists (S (total cs)). intros fuel Lf. unfold read. rewrite filter_opened. fold ls.
  assert (NDs : NoDup (map w_key ls)).
  { unfold ls. clear - ND. induction l as [|s l IH]; [constructor|]. cbn [map] in ND. inversion ND; subst. cbn [filter].
    destruct (subscribed cbs (w_key s)); [|apply IH; assumption]. cbn [map]. constructor; [|apply IH; assumption].
    intros I. apply H1. apply in_map_iff in I as (x & Ex & I). apply filter_In in I as (I & _). rewrite <- Ex. apply in_map. exact I. }
  assert (Keys : map key (opened cut ls) = map w_key ls).
  { destruct (opened_mapkey cut ls) as (E & F). rewrite <- E. apply map_ext_in. intros s I. rewrite Forall_forall in F. apply F. exact I. }
  pose proof (loop_picks cbs fuel (opened cut ls) cs ms [] F1 ltac:(lia)) as LP. rewrite Keys in LP.
  (* positions of the keys *)
  assert (Pos : forall k, cbs k <> None -> (exists i s, nth_error ls i = Some s /\ w_key s = k) \/ ~ In k (map w_key ls) /\ logged k ops = []).
  { intros k Nk. destruct (in_dec Z.eq_dec k (map w_key ls)) as [I|I].
    - left. apply in_map_iff in I as (s & Es & I). apply In_nth_error in I as (i & Ei). exists i, s. auto.
    - right. split; [exact I|]. destruct (logged k ops) eqn:X; [reflexivity|]. exfalso. apply I. assert (In k (map w_key l0)) by (apply Kw; congruence).
      apply in_map_iff in H as (s & Es & Is). apply in_map_iff. exists s. split; [exact Es|]. unfold ls. apply filter_In. split; [apply El; exact Is|].
      rewrite Es. unfold subscribed. destruct (cbs k); [reflexivity|congruence]. }
  assert (Nil : forall k, cbs k = None -> ~ In k (map w_key ls)).
  { intros k E I. apply in_map_iff in I as (s & Es & I). unfold ls in I. apply filter_In in I as (_ & I). rewrite Es in I. unfold subscribed in I. rewrite E in I. discriminate. }
  assert (Zero : forall n, cut_records n [] []).
  { intros n. exists [], []. cbn. split; [reflexivity|]. split; [lia|]. split; [constructor|]. split; [lia|]. split; [lia|]. split; [left; reflexivity|lia]. }
  assert (Srt : (forall k, cbs k <> None -> StronglySorted tle (map fst (logged k ops))) -> forall c, In c cs -> sorted_stream c).
  { intros HS c Ic. apply In_nth_error in Ic as (i & Ei). destruct (Forall2_nth_r _ _ _ F2 i c Ei) as (s & Es & (c1 & e & -> & Ln & S1 & _ & _ & E1 & _)).
    assert (Hk : cbs (w_key s) <> None).
    { apply nth_error_In in Es. unfold ls in Es. apply filter_In in Es as (_ & Es). unfold subscribed in Es. destruct (cbs (w_key s)); [congruence|discriminate]. }
    specialize (HS _ Hk). unfold sorted_stream.
    assert (P : map fst (c1 ++ e) = firstn (length (c1 ++ e)) (map fst (logged (w_key s) ops))).
    { assert (P1 : map fst c1 = firstn (length c1) (map fst (logged (w_key s) ops))).
      { rewrite firstn_map. clear - S1. remember (firstn (length c1) (logged (w_key s) ops)) as q. clear Heqq. induction S1 as [|r m q c (E & _) S IH]; [reflexivity|]. cbn [map]. rewrite E, IH. reflexivity. }
      destruct E1 as [->|(r & vs & Nr & -> & _)]; [rewrite app_nil_r; exact P1|].
      rewrite map_app, P1, app_length. cbn [map length fst]. rewrite Nat.add_1_r. clear - Nr.
      revert Nr. generalize (logged (w_key s) ops). generalize (length c1). clear. induction n as [|n IH]; intros [|x L] E; try discriminate; cbn [nth_error] in E.
      - injection E as ->. reflexivity.
      - cbn [map]. change (fst x :: (firstn n (map fst L) ++ [fst r]) = fst x :: firstn (S n) (map fst L)). f_equal. apply IH. exact E. }
    rewrite P. clear - HS. revert HS. generalize (map fst (logged (w_key s) ops)). generalize (length (c1 ++ e)). clear.
    induction n as [|n IH]; intros L HS; [constructor|]. destruct HS as [|x L S F]; [constructor|]. cbn [firstn]. constructor; [apply IH; exact S|].
    apply Forall_forall. intros y I. rewrite Forall_forall in F. apply F. rewrite <- (firstn_skipn n L). apply in_or_app. left. exact I. }
  split.
  - destruct (loop dual junk fuel cbs (opened cut ls) ms []) as [tr|tr| |tr].
    + destruct LP as (new & cs' & Em & P & Ae). cbn [messages app] in Em. intros k. rewrite delivered_messages, Em. split.
      * intros E. apply (picks_keys _ _ _ _ P k (Nil k E)).
      * intros Nk. eexists. split; [reflexivity|]. destruct (Pos k Nk) as [(i & s & Ei & Ek)|(I & E)].
        -- destruct (Forall2_nth _ _ _ _ _ F2 Ei) as (c & Ec & C). rewrite Ek in C.
           destruct (picks_split _ _ _ _ NDs P i k ltac:(rewrite nth_error_map, Ei; cbn; congruence) c Ec) as (c' & Ec' & X).
           unfold all_empty in Ae. rewrite Forall_forall in Ae. rewrite (Ae c' (nth_error_In _ _ Ec')), app_nil_r in X. rewrite <- X. exact C.
        -- rewrite (picks_keys _ _ _ _ P k I), E. apply Zero.
    + destruct LP as (new & cs' & Em & P). cbn [messages app] in Em. intros k. rewrite delivered_messages, Em. split.
      * intros E. apply (picks_keys _ _ _ _ P k (Nil k E)).
      * intros Nk. destruct (Pos k Nk) as [(i & s & Ei & Ek)|(I & E)].
        -- destruct (Forall2_nth _ _ _ _ _ F2 Ei) as (c & Ec & C). rewrite Ek in C.
           destruct (picks_split _ _ _ _ NDs P i k ltac:(rewrite nth_error_map, Ei; cbn; congruence) c Ec) as (c' & Ec' & X).
           exists c. split; [exact C|]. exists c'. exact X.
        -- exists []. rewrite E. split; [apply Zero|]. exists []. rewrite (picks_keys _ _ _ _ P k I). reflexivity.
    + exact LP.
    + exact LP.
  - intros HS. specialize (Srt HS). destruct (loop dual junk fuel cbs (opened cut ls) ms []) as [tr|tr| |tr]; [| |exact I|exact I].
    + destruct LP as (new & cs' & Em & P & _). cbn [messages app] in Em. rewrite Em. apply (picks_sorted _ _ _ _ P Srt).
    + destruct LP as (new & cs' & Em & P). cbn [messages app] in Em. rewrite Em. apply (picks_sorted _ _ _ _ P Srt).
Qed.
End Log.
