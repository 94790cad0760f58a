(** Lemmas about the log codec. *)
From Coq Require Import String ZArith NArith List Bool Lia Arith.
From Verif Require Import SerializeModel SerializeSpec.
Import ListNotations.
Local Open Scope string_scope.
Local Open Scope list_scope.
Local Open Scope nat_scope.

Lemma le_length n : forall x, length (le n x) = n.
Proof. induction n; intros x; cbn [le length]; [reflexivity|]. rewrite IHn. reflexivity. Qed.
Lemma le_bytes n : forall x, Forall (fun b => (b < 256)%N) (le n x).
Proof. induction n; intros x; cbn [le]; constructor; [apply N.mod_lt; lia|apply IHn]. Qed.
Lemma unle_le n : forall x, (x < 2 ^ (8 * N.of_nat n))%N -> unle (le n x) = x.
Proof.
  induction n; intros x H.
  - cbn. change (2 ^ (8 * N.of_nat 0))%N with 1%N in H. lia.
  - cbn [le unle]. rewrite IHn.
    + pose proof (N.div_mod x 256 ltac:(lia)). lia.
    + replace (8 * N.of_nat (S n))%N with (8 + 8 * N.of_nat n)%N in H by lia. rewrite N.pow_add_r in H. change (2 ^ 8)%N with 256%N in H.
      apply N.div_lt_upper_bound; lia.
Qed.
Lemma enc_length p z : length (enc p z) = width p.
Proof. apply le_length. Qed.
Lemma enc_bytes p z : Forall (fun b => (b < 256)%N) (enc p z).
Proof. apply le_bytes. Qed.
Lemma modulus_bits p : modulus p = (2 ^ bits p)%Z.
Proof. destruct p; reflexivity. Qed.
Lemma unle_enc p z : Z.of_N (unle (enc p z)) = (z mod modulus p)%Z.
Proof.
  pose proof (Z.mod_pos_bound z (modulus p)) as B. assert (P : (0 < modulus p)%Z) by (destruct p; reflexivity). specialize (B P).
  unfold enc. rewrite unle_le; [lia|].
  apply N2Z.inj_lt. rewrite Z2N.id by lia. rewrite N2Z.inj_pow, N2Z.inj_mul, nat_N_Z. exact (proj2 B).
Qed.
Lemma dec_enc p z : in_range p z -> dec p (enc p z) = z.
Proof.
  intros R. unfold dec. rewrite unle_enc.
  assert (C : (0 <= z < modulus p)%Z \/ (- modulus p / 2 <= z < 0)%Z /\ signed p = true).
  { rewrite modulus_bits. destruct p; cbn [in_range bits signed] in *;
      match goal with |- context [(- ?m / 2)%Z] => let v := eval vm_compute in (- m / 2)%Z in change (- m / 2)%Z with v end; lia. }
  destruct C as [C|[C S]].
  - rewrite Z.mod_small by lia. destruct (signed p) eqn:S; [|reflexivity]. cbn [andb].
    replace (modulus p / 2 <=? z)%Z with false; [reflexivity|]. symmetry. apply Z.leb_gt.
    destruct p; try discriminate; cbn [in_range bits] in R; unfold modulus; cbn [width];
      match goal with |- (_ < ?m / 2)%Z => let v := eval vm_compute in (m / 2)%Z in change (m / 2)%Z with v end; lia.
  - rewrite S. replace (z mod modulus p)%Z with (z + modulus p)%Z.
    + cbn [andb]. replace (modulus p / 2 <=? z + modulus p)%Z with true; [lia|]. symmetry. apply Z.leb_le.
      destruct p; try discriminate; unfold modulus in *; cbn [width] in *;
        match goal with |- (?m / 2 <= _)%Z => let v := eval vm_compute in (m / 2)%Z in change (m / 2)%Z with v end;
        match type of C with (?m <= _ < _)%Z => let v := eval vm_compute in m in change m with v in C end;
        match goal with |- context [(z + ?m)%Z] => let v := eval vm_compute in m in change m with v end; lia.
    + apply (Z.mod_unique_pos _ _ (-1)); [|lia].
      destruct p; try discriminate; unfold modulus in *; cbn [width] in *;
        match type of C with (?m <= _ < _)%Z => let v := eval vm_compute in m in change m with v in C end;
        match goal with |- context [(z + ?m)%Z] => let v := eval vm_compute in m in change m with v end; lia.
Qed.
Lemma encs_length p l : length (encs p l) = length l * width p.
Proof. unfold encs. induction l; cbn [flat_map length]; [reflexivity|]. rewrite app_length, enc_length, IHl. lia. Qed.
Lemma encs_bytes p l : Forall (fun b => (b < 256)%N) (encs p l).
Proof. unfold encs. induction l; cbn [flat_map]; [constructor|]. apply Forall_app. split; [apply enc_bytes|assumption]. Qed.
Lemma firstn_exact {A} (a b : list A) n : length a = n -> firstn n (a ++ b) = a.
Proof. intros <-. rewrite firstn_app, Nat.sub_diag, firstn_all. cbn. apply app_nil_r. Qed.
Lemma skipn_exact {A} (a b : list A) n : length a = n -> skipn n (a ++ b) = b.
Proof. intros <-. rewrite skipn_app, Nat.sub_diag, skipn_all. reflexivity. Qed.
Lemma decs_encs p l b : Forall (in_range p) l -> decs p (length l) (encs p l ++ b) = l.
Proof.
  unfold encs. induction 1 as [|x l R F IH]; [reflexivity|]. cbn [length decs flat_map]. rewrite <- app_assoc.
  rewrite firstn_exact by apply enc_length. rewrite skipn_exact by apply enc_length. rewrite dec_enc by assumption. f_equal. exact IH.
Qed.
Lemma read_exact n old b r : length b = n -> read_bytes n old (mkStream (b ++ r) false) = (b, mkStream r false).
Proof.
  intros L. unfold read_bytes. cbn [eof rest]. rewrite app_length. replace (n <=? length b + length r) with true by (symmetry; apply Nat.leb_le; lia).
  rewrite firstn_exact, skipn_exact by assumption. reflexivity.
Qed.

(** Association lists. *)
Lemma find_put {A} n (x : A) : forall m k, find k (put n x m) = if String.eqb n k then Some x else find k m.
Proof.
  induction m as [|(j, y) t IH]; intros k; cbn [put find]; [reflexivity|].
  destruct (String.eqb_spec j n) as [ -> |D]; cbn [find].
  - destruct (String.eqb_spec n k); reflexivity.
  - destruct (String.eqb_spec j k) as [ -> |D'].
    + destruct (String.eqb_spec n k); [congruence|reflexivity].
    + apply IH.
Qed.
Lemma get_set n x m k : get k (set n x (Obj m)) = if String.eqb n k then x else get k (Obj m).
Proof. cbn [set get]. rewrite find_put. destruct (String.eqb n k); reflexivity. Qed.

(** Induction on types. *)
Fixpoint ty_rec' (P : ty -> Prop) (H1 : forall p, P (Prim p)) (H2 : forall p r c, P (Mat p r c)) (H3 : forall p, P (Dyn p))
  (H4 : forall fs, Forall (fun nu => P (snd nu)) fs -> P (Struct fs)) (H5 : P Dual) (t : ty) : P t :=
  match t with
  | Prim p => H1 p | Mat p r c => H2 p r c | Dyn p => H3 p | Dual => H5
  | Struct fs => H4 fs ((fix go (fs : list (string * ty)) : Forall (fun nu => P (snd nu)) fs :=
      match fs with [] => Forall_nil _ | nu :: r => Forall_cons nu (ty_rec' P H1 H2 H3 H4 H5 (snd nu)) (go r) end) fs)
  end.

(** A member listed twice has one type. *)
Fixpoint wf_ty (t : ty) : Prop :=
  match t with
  | Struct fs => (forall n a b, In (n, a) fs -> In (n, b) fs -> a = b) /\
      (fix go (fs : list (string * ty)) : Prop := match fs with [] => True | (n, u) :: r => wf_ty u /\ go r end) fs
  | _ => True
  end.

(** The nested loops as functions of their own. *)
Fixpoint all_fields (P : string -> ty -> Prop) (fs : list (string * ty)) : Prop :=
  match fs with [] => True | (n, u) :: r => P n u /\ all_fields P r end.
Lemma all_fields_Forall P fs : all_fields P fs <-> Forall (fun nu => P (fst nu) (snd nu)) fs.
Proof.
  induction fs as [|(n, u) r IH]; cbn [all_fields]; split; intros H; [constructor|exact I| |].
  - destruct H. constructor; [assumption|]. apply IH. assumption.
  - inversion H; subst. split; [assumption|]. apply IH. assumption.
Qed.
Lemma has_type_struct fs v : has_type (Struct fs) v <-> (exists m, v = Obj m) /\ Forall (fun nu => has_type (snd nu) (get (fst nu) v)) fs.
Proof.
  rewrite <- (all_fields_Forall (fun n u => has_type u (get n v))). cbn [has_type].
  assert (E : (fix go (fs : list (string * ty)) : Prop := match fs with [] => True | (n, u) :: r => has_type u (get n v) /\ go r end) fs
              = all_fields (fun n u => has_type u (get n v)) fs).
  { induction fs as [|(n, u) r IH]; [reflexivity|]. cbn [all_fields]. rewrite <- IH. reflexivity. }
  rewrite E. reflexivity.
Qed.
Lemma same_size_struct fs a b : same_size (Struct fs) a b <-> Forall (fun nu => same_size (snd nu) (get (fst nu) a) (get (fst nu) b)) fs.
Proof.
  rewrite <- (all_fields_Forall (fun n u => same_size u (get n a) (get n b))). cbn [same_size].
  assert (E : (fix go (fs : list (string * ty)) : Prop := match fs with [] => True | (n, u) :: r => same_size u (get n a) (get n b) /\ go r end) fs
              = all_fields (fun n u => same_size u (get n a) (get n b)) fs).
  { induction fs as [|(n, u) r IH]; [reflexivity|]. cbn [all_fields]. rewrite <- IH. reflexivity. }
  rewrite E. reflexivity.
Qed.
Lemma wf_struct fs : wf_ty (Struct fs) <-> (forall n a b, In (n, a) fs -> In (n, b) fs -> a = b) /\ Forall (fun nu => wf_ty (snd nu)) fs.
Proof.
  rewrite <- (all_fields_Forall (fun n u => wf_ty u)). cbn [wf_ty].
  assert (E : (fix go (fs : list (string * ty)) : Prop := match fs with [] => True | (n, u) :: r => wf_ty u /\ go r end) fs
              = all_fields (fun n u => wf_ty u) fs).
  { induction fs as [|(n, u) r IH]; [reflexivity|]. cbn [all_fields]. rewrite <- IH. reflexivity. }
  rewrite E. reflexivity.
Qed.

Section RoundTrip.
Variable translation dual : list Z -> list Z -> list Z.
Variable junk : list Z.
Hypothesis translation_ok : forall r d, length (translation r d) = 3 /\ Forall (in_range FP64) (translation r d).
Hypothesis dual_ok : forall q t, length (dual q t) = 4 /\ Forall (in_range FP64) (dual q t).

Notation ser := (ser translation).
Notation des := (des dual junk).
Notation copy_of := (copy_of translation dual).

Lemma copy_struct fs a b : copy_of (Struct fs) a b <-> Forall (fun nu => copy_of (snd nu) (get (fst nu) a) (get (fst nu) b)) fs.
Proof.
  rewrite <- (all_fields_Forall (fun n u => copy_of u (get n a) (get n b))). cbn [SerializeSpec.copy_of].
  assert (E : (fix go (fs : list (string * ty)) : Prop := match fs with [] => True | (n, u) :: r => copy_of u (get n a) (get n b) /\ go r end) fs
              = all_fields (fun n u => copy_of u (get n a) (get n b)) fs).
  { induction fs as [|(n, u) r IH]; [reflexivity|]. cbn [all_fields]. rewrite <- IH. reflexivity. }
  rewrite E. reflexivity.
Qed.
Fixpoint ser_fields (fs : list (string * ty)) (v : value) : list N :=
  match fs with [] => [] | (n, u) :: r => ser u (get n v) ++ ser_fields r v end.
Lemma ser_struct fs v : ser (Struct fs) v = ser_fields fs v.
Proof. cbn [SerializeModel.ser]. induction fs as [|(n, u) r IH]; [reflexivity|]. cbn [ser_fields]. rewrite <- IH. reflexivity. Qed.
Fixpoint des_fields (fs : list (string * ty)) (o : value) (s : istream) : value * istream :=
  match fs with [] => (o, s) | (n, u) :: r => let (x, s') := des u (get n o) s in des_fields r (set n x o) s' end.
Lemma des_struct fs o s : des (Struct fs) o s = des_fields fs o s.
Proof.
  cbn [SerializeModel.des]. revert o s. induction fs as [|(n, u) r IH]; intros o s; [reflexivity|]. cbn [des_fields].
  destruct (des u (get n o) s) as (x, s'). apply IH.
Qed.

(** Members not listed keep their value; the object stays an object. *)
Lemma des_fields_other fs : forall m s k, ~ In k (map fst fs) -> get k (fst (des_fields fs (Obj m) s)) = get k (Obj m).
Proof.
  induction fs as [|(n, u) r IH]; intros m s k K; [reflexivity|]. cbn [des_fields]. destruct (des u (get n (Obj m)) s) as (x, s').
  cbn [set]. rewrite IH by (intros X; apply K; right; exact X).
  change (Obj (put n x m)) with (set n x (Obj m)). rewrite get_set. destruct (String.eqb_spec n k) as [ -> |]; [|reflexivity].
  exfalso. apply K. left. reflexivity.
Qed.
Lemma des_fields_obj fs : forall m s, exists m', fst (des_fields fs (Obj m) s) = Obj m'.
Proof.
  induction fs as [|(n, u) r IH]; intros m s; cbn [des_fields]; [eexists; reflexivity|].
  destruct (des u (get n (Obj m)) s) as (x, s'). apply IH.
Qed.

Theorem round_trip t : wf_ty t -> forall v o r, has_type t v -> has_type t o -> same_size t v o ->
  exists o', des t o (mkStream (ser t v ++ r) false) = (o', mkStream r false) /\ copy_of t o' v /\ has_type t o'.
Proof.
  revert t. induction t as [p|p rr c|p|fs IH|] using ty_rec'; intros W v o r Tv To Sz.
  - destruct Tv as (z & -> & R). cbn [SerializeModel.des SerializeModel.ser num]. rewrite read_exact by apply enc_length.
    exists (Num (dec p (enc p z))). rewrite dec_enc by assumption. split; [reflexivity|]. split; [reflexivity|]. exists z. auto.
  - destruct Tv as (l & -> & L & R). cbn [SerializeModel.des SerializeModel.ser arr]. rewrite read_exact by (rewrite encs_length, L; reflexivity).
    exists (Arr l). rewrite <- L. rewrite <- (app_nil_r (encs p l)). rewrite decs_encs by assumption.
    split; [reflexivity|]. split; [reflexivity|]. exists l. auto.
  - destruct Tv as (l & -> & R). cbn [SerializeModel.des SerializeModel.ser arr]. cbn [same_size arr] in Sz. rewrite <- Sz.
    rewrite read_exact by (rewrite encs_length; reflexivity).
    exists (Arr l). rewrite <- (app_nil_r (encs p l)). rewrite decs_encs by assumption.
    split; [reflexivity|]. split; [reflexivity|]. exists l. auto.
  - rewrite des_struct, ser_struct. rewrite has_type_struct in Tv, To. rewrite same_size_struct in Sz. rewrite wf_struct in W.
    destruct Tv as ((mv & Ev) & Tv). destruct To as ((mo & Eo) & To). destruct W as (Fn & W).
    (* fields [done] already hold copies *)
    assert (G : forall done todo m r0, fs = done ++ todo ->
      Forall (fun nu => copy_of (snd nu) (get (fst nu) (Obj m)) (get (fst nu) v)) done ->
      Forall (fun nu => has_type (snd nu) (get (fst nu) (Obj m)) /\ same_size (snd nu) (get (fst nu) v) (get (fst nu) (Obj m))) fs ->
      exists m', des_fields todo (Obj m) (mkStream (ser_fields todo v ++ r0) false) = (Obj m', mkStream r0 false) /\
        Forall (fun nu => copy_of (snd nu) (get (fst nu) (Obj m')) (get (fst nu) v)) fs /\
        Forall (fun nu => has_type (snd nu) (get (fst nu) (Obj m'))) fs).
    { intros done todo. revert done. induction todo as [|(n, u) rest IHt]; intros done m r0 Ef Hd Hs.
      - rewrite app_nil_r in Ef. subst done. exists m. split; [reflexivity|]. split; [assumption|].
        eapply Forall_impl; [|exact Hs]. intros nu (A & _). exact A.
      - assert (In_u : In (n, u) fs) by (rewrite Ef; apply in_or_app; right; left; reflexivity).
        rewrite Forall_forall in IH, Tv, W, Hs. cbn [des_fields ser_fields]. rewrite <- app_assoc.
        pose proof (Hs _ In_u) as (Hu1 & Hu2). cbn [fst snd] in Hu1, Hu2.
        destruct (IH _ In_u (W _ In_u) (get n v) (get n (Obj m)) (ser_fields rest v ++ r0) (Tv _ In_u) Hu1 Hu2) as (x & E & Cx & Tx).
        cbn [fst snd] in E, Cx, Tx. rewrite E.
        destruct (IHt (done ++ [(n, u)]) (put n x m) r0) as (m' & E' & C' & T').
        + rewrite Ef, <- app_assoc. reflexivity.
        + apply Forall_app. split; [|constructor; [|constructor]].
          * rewrite Forall_forall in Hd |- *. intros (k, w) I. cbn [fst snd]. change (Obj (put n x m)) with (set n x (Obj m)). rewrite get_set.
            destruct (String.eqb_spec n k) as [ -> |D]; [|exact (Hd _ I)].
            replace w with u; [exact Cx|]. apply (Fn k); [exact In_u|]. rewrite Ef. apply in_or_app. left. exact I.
          * cbn [fst snd]. change (Obj (put n x m)) with (set n x (Obj m)). rewrite get_set, String.eqb_refl. exact Cx.
        + rewrite Forall_forall. intros (k, w) I. cbn [fst snd]. change (Obj (put n x m)) with (set n x (Obj m)). rewrite get_set.
          destruct (String.eqb_spec n k) as [ -> |D]; [|exact (Hs _ I)].
          assert (w = u) as -> by (apply (Fn k); assumption). split; [exact Tx|].
          clear - Cx Hu2. revert Cx. generalize (get k v). clear Hu2. revert x.
          induction u as [p|p r c|p|fs IH|] using ty_rec'; intros a b Cx; try exact I.
          -- cbn [SerializeSpec.copy_of] in Cx. subst. reflexivity.
          -- rewrite copy_struct in Cx. rewrite same_size_struct. rewrite Forall_forall in *. intros nu I. apply IH; auto.
        + exists m'. split; [exact E'|]. split; assumption. }
    destruct (G [] fs mo r eq_refl (Forall_nil _)) as (m' & E & C & T).
    { subst o. rewrite Forall_forall in *. intros nu I. split; auto. }
    subst o. exists (Obj m'). split; [exact E|]. split; [apply copy_struct; exact C|]. apply has_type_struct. split; [eexists; reflexivity|exact T].
  - destruct Tv as (q & d & -> & L1 & L2 & R1 & R2). destruct (translation_ok q d) as (L3 & R3).
    cbn [SerializeModel.des SerializeModel.ser get find String.eqb Ascii.eqb Bool.eqb arr]. rewrite <- app_assoc.
    change (arr (get "arr_" (Obj [("arr_", Arr q)]))) with q.
    rewrite read_exact by (rewrite encs_length, L1; reflexivity). rewrite read_exact by (rewrite encs_length, L3; reflexivity).
    replace (decs FP64 4 (encs FP64 q)) with q by (rewrite <- L1, <- (app_nil_r (encs FP64 q)); symmetry; apply decs_encs; assumption).
    replace (decs FP64 3 (encs FP64 (translation q d))) with (translation q d)
      by (rewrite <- L3, <- (app_nil_r (encs FP64 (translation q d))); symmetry; apply decs_encs; assumption).
    destruct (dual_ok q (translation q d)) as (L4 & R4).
    eexists. split; [reflexivity|]. split; [split; reflexivity|]. exists q, (dual q (translation q d)). auto.
Qed.

(** The same for several values in a row. *)
Lemma round_trip_all : forall ts vs os r, length vs = length ts -> length os = length ts -> Forall wf_ty ts ->
  Forall (fun tv => has_type (fst tv) (snd tv)) (combine ts vs) -> Forall (fun tv => has_type (fst tv) (snd tv)) (combine ts os) ->
  Forall (fun x => same_size (fst x) (fst (snd x)) (snd (snd x))) (combine ts (combine vs os)) ->
  exists os', read_all dual junk (combine ts os) (mkStream (log_all translation (combine ts vs) ++ r) false) = (os', mkStream r false) /\
    length os' = length ts /\ Forall (fun x => copy_of (fst x) (fst (snd x)) (snd (snd x))) (combine ts (combine os' vs)).
Proof.
  induction ts as [|t ts IH]; intros vs os r Lv Lo W Tv To Sz; cbn [combine read_all log_all].
  - exists []. split; [reflexivity|]. split; [reflexivity|constructor].
  - destruct vs as [|v vs]; [discriminate|]. destruct os as [|o os]; [discriminate|]. cbn [combine] in *.
    inversion W; subst. inversion Tv; subst. inversion To; subst. inversion Sz; subst. cbn [fst snd] in *.
    cbn [read_all log_all]. rewrite <- app_assoc.
    destruct (round_trip t H1 v o (log_all translation (combine ts vs) ++ r) H3 H5 H7) as (o' & E & C & _). rewrite E.
    destruct (IH vs os r) as (os' & E' & L' & C'); [injection Lv; auto|injection Lo; auto|assumption..|]. rewrite E'.
    exists (o' :: os'). split; [reflexivity|]. split; [cbn [length]; congruence|]. cbn [combine]. constructor; [exact C|exact C'].
Qed.

(** The number of bytes written depends on the type alone, dynamic objects apart. *)
Lemma ser_bytes t : forall v, Forall (fun b => (b < 256)%N) (ser t v).
Proof.
  induction t as [p|p rr c|p|fs IH|] using ty_rec'; intros v.
  - apply enc_bytes.
  - apply encs_bytes.
  - apply encs_bytes.
  - rewrite ser_struct. induction IH as [|(n, u) r P F IHF]; cbn [ser_fields]; [constructor|]. apply Forall_app. split; [apply P|exact IHF].
  - cbn [SerializeModel.ser]. apply Forall_app. split; apply encs_bytes.
Qed.
End RoundTrip.

Fixpoint no_dyn (t : ty) : Prop :=
  match t with
  | Dyn _ => False
  | Struct fs => (fix go (fs : list (string * ty)) : Prop := match fs with [] => True | (n, u) :: r => no_dyn u /\ go r end) fs
  | _ => True
  end.
Lemma no_dyn_same t a b : no_dyn t -> same_size t a b.
Proof.
  revert a b. induction t as [p|p rr c|p|fs IH|] using ty_rec'; intros a b N; try exact I; [destruct N|].
  apply same_size_struct. cbn [no_dyn] in N. induction IH as [|(n, u) r P F IHF]; constructor; destruct N as (N1 & N2).
  - cbn [fst snd]. apply P. exact N1.
  - apply IHF. exact N2.
Qed.

(** Types with a decidable check of [wf_ty]. *)
Fixpoint ty_eqb (a b : ty) : bool :=
  match a, b with
  | Prim p, Prim q => Z.eqb (code p) (code q)
  | Mat p r c, Mat q r' c' => Z.eqb (code p) (code q) && (r =? r') && (c =? c')
  | Dyn p, Dyn q => Z.eqb (code p) (code q)
  | Dual, Dual => true
  | Struct fs, Struct gs =>
      (fix go (fs gs : list (string * ty)) : bool :=
         match fs, gs with
         | [], [] => true
         | (n, u) :: r, (m, w) :: r' => String.eqb n m && ty_eqb u w && go r r'
         | _, _ => false
         end) fs gs
  | _, _ => false
  end.
Lemma code_inj p q : code p = code q -> p = q.
Proof. destruct p, q; (reflexivity || discriminate). Qed.
Lemma ty_eqb_eq a : forall b, ty_eqb a b = true -> a = b.
Proof.
  induction a as [p|p rr c|p|fs IH|] using ty_rec'; intros [q|q r' c'|q|gs|] E; cbn [ty_eqb] in E; try discriminate; try reflexivity.
  - apply Z.eqb_eq, code_inj in E. congruence.
  - apply andb_prop in E as (E & E3). apply andb_prop in E as (E1 & E2). apply Z.eqb_eq, code_inj in E1. apply Nat.eqb_eq in E2, E3. congruence.
  - apply Z.eqb_eq, code_inj in E. congruence.
  - f_equal. revert gs E. induction IH as [|(n, u) r P F IHF]; intros [|(m, w) r'] E; try discriminate; [reflexivity|].
    apply andb_prop in E as (E & E3). apply andb_prop in E as (E1 & E2). apply String.eqb_eq in E1. cbn [snd] in P. apply P in E2.
    rewrite (IHF r' E3). congruence.
Qed.
Fixpoint wfb (t : ty) : bool :=
  match t with
  | Struct fs => forallb (fun x => forallb (fun y => negb (String.eqb (fst x) (fst y)) || ty_eqb (snd x) (snd y)) fs) fs &&
      (fix go (fs : list (string * ty)) : bool := match fs with [] => true | (n, u) :: r => wfb u && go r end) fs
  | _ => true
  end.
Lemma wfb_wf t : wfb t = true -> wf_ty t.
Proof.
  induction t as [p|p rr c|p|fs IH|] using ty_rec'; intros E; try exact I. cbn [wfb] in E. apply andb_prop in E as (E1 & E2).
  apply wf_struct. split.
  - intros n a b A B. rewrite forallb_forall in E1. specialize (E1 _ A). rewrite forallb_forall in E1. specialize (E1 _ B). cbn [fst snd] in E1.
    rewrite String.eqb_refl in E1. apply ty_eqb_eq. exact E1.
  - clear E1. induction IH as [|(n, u) r P F IHF]; constructor; apply andb_prop in E2 as (A & B); [apply P; exact A|apply IHF; exact B].
Qed.
Lemma arg_wf a : wf_ty (arg_ty a).
Proof. destruct a; try exact I; apply wfb_wf; vm_compute; reflexivity. Qed.

(** ** The Python reader *)
Fixpoint np_fields (l : list (string * dtype)) (b : list N) : list (string * pval) :=
  match l with [] => [] | (n, x) :: r => (n, np_read x b) :: np_fields r (skipn (itemsize x) b) end.
Lemma np_rec l b : np_read (DRec l) b = PRec (np_fields l b).
Proof. reflexivity. Qed.
Fixpoint sizes (l : list (string * dtype)) : nat := match l with [] => 0 | (_, x) :: r => itemsize x + sizes r end.
Lemma itemsize_rec l : itemsize (DRec l) = sizes l.
Proof. reflexivity. Qed.

Definition reads (d : dtype) (b : list N) (v : pval) : Prop := itemsize d = length b /\ forall r, np_read d (b ++ r) = v.
Inductive readsF : list (string * dtype) -> list N -> list (string * pval) -> Prop :=
| rF_nil : readsF [] [] []
| rF_cons n d b v l bs vs : reads d b v -> readsF l bs vs -> readsF ((n, d) :: l) (b ++ bs) ((n, v) :: vs).
Lemma readsF_ok l b v : readsF l b v -> sizes l = length b /\ forall r, np_fields l (b ++ r) = v.
Proof.
  induction 1 as [|n d b v l bs vs (A1 & A2) _ (B1 & B2)]; [split; reflexivity|]. split.
  - cbn [sizes]. rewrite app_length. lia.
  - intros r. cbn [np_fields]. rewrite <- app_assoc. rewrite A2. rewrite skipn_exact by (symmetry; exact A1). rewrite B2. reflexivity.
Qed.
Lemma reads_rec l b v : readsF l b v -> reads (DRec l) b (PRec v).
Proof. intros H. apply readsF_ok in H as (A & B). split; [rewrite itemsize_rec; exact A|]. intros r. rewrite np_rec, B. reflexivity. Qed.
Lemma reads_scalar p z : in_range p z -> reads (DScalar p) (enc p z) (PNum z).
Proof.
  intros R. split; [cbn [itemsize]; rewrite enc_length; reflexivity|]. intros r. cbn [np_read]. rewrite firstn_exact by apply enc_length.
  rewrite dec_enc by assumption. reflexivity.
Qed.
Lemma rows_col l : forall pre, rows_of (length l) 1 l = map (fun i => [nth i (pre ++ l) 0%Z]) (seq (length pre) (length l)).
Proof.
  induction l as [|x l IH]; intros pre; [reflexivity|]. cbn [length rows_of seq map firstn skipn]. f_equal.
  - rewrite app_nth2, Nat.sub_diag by lia. reflexivity.
  - specialize (IH (pre ++ [x])). rewrite IH. rewrite app_length, Nat.add_1_r. apply map_ext. intros i. rewrite <- app_assoc. reflexivity.
Qed.
Lemma matrix_col l : PMat (rows_of (length l) 1 l) = matrix (length l) 1 l.
Proof. unfold matrix, elem. f_equal. rewrite (rows_col l []). cbn [length app]. apply map_ext. intros i. cbn [seq map]. reflexivity. Qed.
Lemma map_nth_seq (l : list Z) : forall pre, map (fun j => nth j (pre ++ l) 0%Z) (seq (length pre) (length l)) = l.
Proof.
  induction l as [|x l IH]; intros pre; [reflexivity|]. cbn [length seq map]. f_equal.
  - rewrite app_nth2, Nat.sub_diag by lia. reflexivity.
  - specialize (IH (pre ++ [x])). rewrite app_length, Nat.add_1_r in IH. etransitivity; [|exact IH]. apply map_ext. intros i. rewrite <- app_assoc. reflexivity.
Qed.
Lemma matrix_row l : PMat (rows_of 1 (length l) l) = matrix 1 (length l) l.
Proof.
  unfold matrix, elem. cbn [rows_of seq map]. rewrite firstn_all. f_equal. f_equal. symmetry.
  etransitivity; [|exact (map_nth_seq l [])]. apply map_ext. intros j. cbn [app]. f_equal. lia.
Qed.
Lemma reads_mat p r c l : length l = r * c -> r = 1 \/ c = 1 -> Forall (in_range p) l -> reads (DMat p r c) (encs p l) (matrix r c l).
Proof.
  intros L D R. split; [cbn [itemsize]; rewrite encs_length, L; reflexivity|]. intros r'. cbn [np_read].
  rewrite <- L. rewrite decs_encs by assumption. destruct D as [ -> | -> ].
  - replace c with (length l) by lia. apply matrix_row.
  - replace r with (length l) by lia. apply matrix_col.
Qed.

Section Python.
Variable translation : list Z -> list Z -> list Z.
Hypothesis translation_ok : forall r d, length (translation r d) = 3 /\ Forall (in_range FP64) (translation r d).
Notation ser := (ser translation).

Lemma ser_prim p v : ser (Prim p) v = enc p (num v).
Proof. reflexivity. Qed.
Lemma reads_prim p v : has_type (Prim p) v -> reads (DScalar p) (ser (Prim p) v) (p_num v).
Proof. intros (z & -> & R). apply reads_scalar. exact R. Qed.
Lemma reads_vec p r c v : has_type (Mat p r c) v -> r = 1 \/ c = 1 -> reads (DMat p r c) (ser (Mat p r c) v) (matrix r c (arr v)).
Proof. intros (l & -> & L & R) D. apply reads_mat; assumption. Qed.

(** Splits the type of an object into the types of its members. *)
Lemma struct_inv fs v : has_type (Struct fs) v -> all_fields (fun n u => has_type u (get n v)) fs.
Proof. intros H. apply has_type_struct in H as (_ & H). apply all_fields_Forall. exact H. Qed.

Definition dUtc : dtype := DRec [("sec", DScalar INT64); ("nsec", DScalar INT64)].
Lemma reads_utc v : has_type tUTC v -> reads dUtc (ser tUTC v) (p_utc v).
Proof.
  intros H. apply struct_inv in H. cbn in H. destruct H as (H1 & H2 & _).
  apply reads_rec. change (ser tUTC v) with (ser (Prim INT64) (get "sec" v) ++ ser (Prim INT64) (get "nsec" v) ++ []).
  apply rF_cons; [apply reads_prim; exact H1|]. apply rF_cons; [apply reads_prim; exact H2|constructor].
Qed.

(** Everything Python needs to know about one argument. *)
Definition dVec3 : dtype := DMat FP64 3 1.
Definition dQuat : dtype := DRec [("w", DScalar FP64); ("x", DScalar FP64); ("y", DScalar FP64); ("z", DScalar FP64)].
Definition dDQuat : dtype := DRec [("rot", dQuat); ("trans", dVec3)].
Definition dTangent : dtype := DRec [("angular", dVec3); ("linear", dVec3)].
Definition arg_dtype (a : arg) : dtype :=
  match a with
  | AScalar p => DScalar p | AMat p r c => DMat p r c | AUTC => dUtc
  | AImu => DRec [("t", dUtc); ("accel", dVec3); ("gyro", dVec3)]
  | AObs => DRec [("t", dUtc); ("gnss_id", DScalar UINT8); ("sat_num", DScalar UINT8); ("freq", DScalar FP64); ("pseudorange", DScalar FP64);
      ("doppler", DScalar FP64); ("carrier_phase", DScalar FP64)]
  | AQuat => dQuat | ADQuat => dDQuat
  | AJet => DRec [("x", dDQuat); ("dx", dTangent)]
  | ATwoJet => DRec [("x", dDQuat); ("dx", dTangent); ("d2x", dTangent)]
  | _ => DRec []
  end.
Lemma arg_make a : plain a -> make_dtype (arg_format a) = Some (arg_dtype a).
Proof.
  destruct a as [p|p r c|p| | | | | | | | | |]; intros P; try (destruct P; fail); try reflexivity.
  - destruct p; reflexivity.
  - cbn [arg_format]. unfold format_mat, node. cbn [fold_left fst snd put String.eqb Ascii.eqb Bool.eqb]. cbn [make_dtype].
    change (has "cols" _) with true at 1. cbn [arg_dtype].
    assert (E : forall z, (0 <=? Z.of_nat z)%Z = true) by (intros; apply Z.leb_le; lia).
    unfold size_of, type_of, int_of. cbn [find String.eqb Ascii.eqb Bool.eqb]. rewrite !E, !Nat2Z.id. destruct p; reflexivity.
Qed.

Lemma reads_quat v : has_type tQuat v -> reads dQuat (ser tQuat v) (p_quat v).
Proof.
  intros H. apply struct_inv in H. cbn in H. destruct H as ((l & E & L & R) & _).
  change (ser tQuat v) with (encs FP64 (arr (get "arr_" v)) ++ []). unfold p_quat. rewrite E. cbn [arr].
  destruct l as [|w [|x [|y [|z [|]]]]]; try discriminate. inversion R; subst. inversion H2; subst. inversion H4; subst. inversion H6; subst.
  cbn [encs flat_map nth]. rewrite <- !app_assoc. cbn [app].
  apply reads_rec. repeat (apply rF_cons; [apply reads_scalar; assumption|]). constructor.
Qed.
Lemma reads_dquat v : has_type Dual v -> reads dDQuat (ser Dual v) (p_dquat translation v).
Proof.
  intros (q & d & -> & L1 & L2 & R1 & R2). destruct (translation_ok q d) as (L3 & R3).
  change (ser Dual (Obj [("r_", Obj [("arr_", Arr q)]); ("d_", Obj [("arr_", Arr d)])])) with (encs FP64 q ++ encs FP64 (translation q d)).
  change (p_dquat translation (Obj [("r_", Obj [("arr_", Arr q)]); ("d_", Obj [("arr_", Arr d)])]))
    with (PRec [("rot", p_quat (Obj [("arr_", Arr q)])); ("trans", matrix 3 1 (translation q d))]).
  rewrite <- (app_nil_r (encs FP64 (translation q d))).
  apply reads_rec. apply rF_cons.
  - replace (encs FP64 q) with (ser tQuat (Obj [("arr_", Arr q)])) by (apply app_nil_r). apply reads_quat.
    apply has_type_struct. split; [eexists; reflexivity|]. constructor; [|constructor]. exists q. split; [reflexivity|]. split; assumption.
  - apply rF_cons; [|constructor]. apply reads_mat; [assumption|right; reflexivity|assumption].
Qed.
Lemma reads_tangent v : has_type tTangent v -> reads dTangent (ser tTangent v) (p_tangent v).
Proof.
  intros (l & -> & L & R). change (ser tTangent (Arr l)) with (encs FP64 l). unfold p_tangent. cbn [arr].
  replace (encs FP64 l) with (encs FP64 (firstn 3 l) ++ encs FP64 (skipn 3 l) ++ [])
    by (unfold encs; rewrite app_nil_r, <- flat_map_app, firstn_skipn; reflexivity).
  rewrite <- (firstn_skipn 3 l) in R. apply Forall_app in R as (R1 & R2).
  apply reads_rec. apply rF_cons; [|apply rF_cons; [|constructor]]; (apply reads_mat; [|right; reflexivity|assumption]).
  - rewrite firstn_length. lia.
  - rewrite skipn_length. lia.
Qed.
Ltac fields := repeat match goal with |- readsF (_ :: _) _ _ => apply rF_cons | |- readsF [] _ _ => constructor end.
Lemma arg_reads a v : plain a -> has_type (arg_ty a) v -> reads (arg_dtype a) (ser (arg_ty a) v) (p_arg translation a v).
Proof.
  destruct a as [p|p r c|p| | | | | | | | | |]; intros P H; try (destruct P; fail).
  - apply reads_prim. exact H.
  - apply reads_vec; assumption.
  - apply reads_utc. exact H.
  - apply struct_inv in H. cbn [pick find String.eqb Ascii.eqb Bool.eqb imu_members app all_fields] in H. destruct H as (H1 & H2 & H3 & _).
    change (ser (arg_ty AImu) v) with (ser tUTC (get "t" v) ++ ser tVec3 (get "accel" v) ++ ser tVec3 (get "gyro" v) ++ []).
    apply reads_rec. fields; [apply reads_utc; exact H1|apply reads_vec; [exact H2|right; reflexivity]|apply reads_vec; [exact H3|right; reflexivity]].
  - apply struct_inv in H. cbn [pick find String.eqb Ascii.eqb Bool.eqb obs_members of_type map app all_fields] in H.
    destruct H as (H1 & H2 & H3 & H4 & H5 & H6 & H7 & _).
    change (ser (arg_ty AObs) v) with (ser tUTC (get "t" v) ++ ser (Prim UINT8) (get "gnss_id" v) ++ ser (Prim UINT8) (get "sat_num" v) ++
      ser (Prim FP64) (get "freq" v) ++ ser (Prim FP64) (get "pseudorange" v) ++ ser (Prim FP64) (get "doppler" v) ++
      ser (Prim FP64) (get "carrier_phase" v) ++ []).
    apply reads_rec. fields; [apply reads_utc; exact H1|apply reads_prim; assumption..].
  - apply reads_quat. exact H.
  - apply reads_dquat. exact H.
  - apply struct_inv in H. cbn [pick find String.eqb Ascii.eqb Bool.eqb jet_members app all_fields] in H. destruct H as (H1 & H2 & _).
    change (ser (arg_ty AJet) v) with (ser Dual (get "x" v) ++ ser tTangent (get "dx" v) ++ []).
    apply reads_rec. fields; [apply reads_dquat; exact H1|apply reads_tangent; exact H2].
  - apply struct_inv in H. cbn [pick find String.eqb Ascii.eqb Bool.eqb twojet_members app all_fields] in H. destruct H as (H1 & H2 & H3 & _).
    change (ser (arg_ty ATwoJet) v) with (ser Dual (get "x" v) ++ ser tTangent (get "dx" v) ++ ser tTangent (get "d2x" v) ++ []).
    apply reads_rec. fields; [apply reads_dquat; exact H1|apply reads_tangent; exact H2|apply reads_tangent; exact H3].
Qed.

(** The declared layout of a stream. *)
Lemma put_new {A} n (x : A) : forall m, ~ In n (map fst m) -> put n x m = m ++ [(n, x)].
Proof.
  induction m as [|(k, y) t IH]; intros H; [reflexivity|]. cbn [put]. destruct (String.eqb_spec k n) as [ -> |]; [exfalso; apply H; left; reflexivity|].
  cbn [app]. rewrite IH; [reflexivity|]. intros X. apply H. right. exact X.
Qed.
Lemma add_fields_new args : forall m, NoDup (map fst m ++ map fst args) -> ~ In "t" (map fst args) ->
  add_fields args m = Some (m ++ map (fun na => (fst na, arg_format (snd na))) args).
Proof.
  induction args as [|(n, a) r IH]; intros m ND T; cbn [add_fields map]; [rewrite app_nil_r; reflexivity|].
  cbn [map fst] in T. destruct (String.eqb_spec n "t") as [ -> |_]; [exfalso; apply T; left; reflexivity|].
  cbn [map fst] in ND. rewrite put_new.
  - rewrite IH.
    + rewrite <- app_assoc. reflexivity.
    + rewrite map_app. cbn [map fst]. rewrite <- app_assoc. exact ND.
    + intros X. apply T. right. exact X.
  - intros X. apply NoDup_remove_2 in ND. apply ND. apply in_or_app. left. exact X.
Qed.
Lemma has_not {A} k (m : list (string * A)) : ~ In k (map fst m) -> has k m = false.
Proof.
  unfold has. induction m as [|(n, x) t IH]; intros H; [reflexivity|]. cbn [find]. destruct (String.eqb_spec n k) as [ -> |]; [exfalso; apply H; left; reflexivity|].
  apply IH. intros X. apply H. right. exact X.
Qed.
Fixpoint dtypes (l : list (string * yaml)) : option (list (string * dtype)) :=
  match l with
  | [] => Some []
  | (n, x) :: r => match make_dtype x, dtypes r with Some d, Some ds => Some ((n, d) :: ds) | _, _ => None end
  end.
Lemma make_dtype_map m : 2 <= length m -> ~ In "cols" (map fst m) -> ~ In "rows" (map fst m) -> ~ In "type" (map fst m) ->
  make_dtype (YMap m) = match dtypes m with Some l => Some (DRec l) | None => None end.
Proof.
  intros L C R T. cbn [make_dtype]. rewrite !has_not by assumption. destruct m as [|x [|y m]]; [cbn in L; lia|cbn in L; lia|]. destruct x. reflexivity.
Qed.
Definition stream_dtype (args : list (string * arg)) : dtype := DRec (("t", dUtc) :: map (fun na => (fst na, arg_dtype (snd na))) args).
Lemma stream_layout args : plain_args args -> exists y, makeFormat args = Some y /\ make_dtype y = Some (stream_dtype args).
Proof.
  intros (NE & Pl & ND & Rs). unfold makeFormat. rewrite Forall_forall in Rs.
  rewrite add_fields_new.
  2: { cbn [map fst app]. constructor; [|exact ND]. intros X. apply (Rs _ X). left. reflexivity. }
  2: { intros X. apply (Rs _ X). left. reflexivity. }
  eexists. split; [reflexivity|].
  assert (K : forall k, In k ["cols"; "rows"; "type"] -> ~ In k (map fst ([("t", format_utc)] ++ map (fun na => (fst na, arg_format (snd na))) args))).
  { intros k K X. cbn [app map fst] in X. destruct X as [X|X].
    - subst k. cbn in K. destruct K as [K|[K|[K|[]]]]; discriminate.
    - rewrite map_map in X. cbn [fst] in X. apply (Rs _ X). cbn in K |- *. tauto. }
  rewrite make_dtype_map.
  - assert (D : dtypes (map (fun na => (fst na, arg_format (snd na))) args) = Some (map (fun na => (fst na, arg_dtype (snd na))) args)).
    { clear - Pl. induction Pl as [|(n, a) r P F IH]; [reflexivity|]. cbn [map dtypes fst snd] in *. rewrite (arg_make _ P), IH. reflexivity. }
    cbn [app dtypes]. rewrite D. reflexivity.
  - rewrite app_length, map_length. destruct args; [congruence|cbn; lia].
  - apply K. cbn. tauto.
  - apply K. cbn. tauto.
  - apply K. cbn. tauto.
Qed.

Lemma stream_reads args stamp vals : Forall (fun na => plain (snd na)) args -> has_type tUTC stamp ->
  Forall2 (fun na v => has_type (arg_ty (snd na)) v) args vals ->
  reads (stream_dtype args) (record_bytes translation stamp args vals) (p_record translation stamp args vals).
Proof.
  intros Pl Ts F. apply reads_rec. apply rF_cons; [apply reads_utc; exact Ts|].
  induction F as [|(n, a) v args vals H F IH]; [constructor|]. cbn [map combine fst snd log_all] in *. inversion Pl; subst. apply rF_cons.
  - apply arg_reads; assumption.
  - apply IH. assumption.
Qed.

(** np.fromfile recovers every record. *)
Lemma fromfile_all d : forall bs vs, 0 < itemsize d -> Forall2 (reads d) bs vs -> fromfile d (concat bs) = vs.
Proof.
  intros bs vs P F. unfold fromfile.
  assert (L : length (concat bs) = length bs * itemsize d).
  { induction F as [|b v bs vs (A & _) F IH]; [reflexivity|]. cbn [concat length]. rewrite app_length, IH, A. lia. }
  rewrite L, Nat.div_mul by lia.
  assert (G : forall pre, map (fun k => np_read d (skipn (k * itemsize d) (concat pre ++ concat bs))) (seq (length pre) (length bs)) = vs \/
    ~ Forall (fun b => length b = itemsize d) pre).
  { clear L. induction F as [|b v bs vs (A & B) F IH]; intros pre; [left; reflexivity|].
    destruct (Forall_dec (fun b => length b = itemsize d) (fun b => Nat.eq_dec _ _) pre) as [Fp|Fp]; [|right; exact Fp]. left.
    cbn [length seq map]. f_equal.
    - rewrite skipn_exact. { cbn [concat]. apply B. }
      clear - Fp. induction Fp; [reflexivity|]. cbn [concat length]. rewrite app_length. lia.
    - destruct (IH (pre ++ [b])) as [G|G].
      + rewrite app_length, Nat.add_1_r in G. etransitivity; [|exact G]. apply map_ext. intros k. rewrite concat_app. cbn [concat]. rewrite app_nil_r, <- app_assoc. reflexivity.
      + exfalso. apply G. apply Forall_app. split; [exact Fp|]. constructor; [congruence|constructor]. }
  destruct (G []) as [E|E]; [exact E|]. exfalso. apply E. constructor.
Qed.
Theorem python_reads args (recs : list (value * list value)) : plain_args args ->
  Forall (fun r => has_type tUTC (fst r) /\ Forall2 (fun na v => has_type (arg_ty (snd na)) v) args (snd r)) recs ->
  exists y d, makeFormat args = Some y /\ make_dtype y = Some d /\
    fromfile d (concat (map (fun r => record_bytes translation (fst r) args (snd r)) recs)) = map (fun r => p_record translation (fst r) args (snd r)) recs.
Proof.
  intros Pl F. destruct (stream_layout args Pl) as (y & E1 & E2). exists y, (stream_dtype args). split; [exact E1|]. split; [exact E2|].
  destruct Pl as (_ & Pl & _). apply fromfile_all.
  - unfold stream_dtype. rewrite itemsize_rec. cbn [sizes]. change (itemsize dUtc) with 16. lia.
  - induction F as [|r recs (T & Fv) F IH]; cbn [map]; constructor; [|exact IH]. apply stream_reads; assumption.
Qed.
End Python.

(** ** Sizes *)
Fixpoint ty_size (t : ty) : nat :=
  match t with
  | Prim p => width p
  | Mat p r c => r * c * width p
  | Dyn _ => 0
  | Struct fs => (fix go (fs : list (string * ty)) : nat := match fs with [] => 0 | (_, u) :: r => ty_size u + go r end) fs
  | Dual => 56
  end.
Section Sizes.
Variable translation : list Z -> list Z -> list Z.
Hypothesis translation_ok : forall r d, length (translation r d) = 3 /\ Forall (in_range FP64) (translation r d).
Lemma ser_size t : no_dyn t -> forall v, has_type t v -> length (ser translation t v) = ty_size t.
Proof.
  induction t as [p|p rr c|p|fs IH|] using ty_rec'; intros N v T.
  - apply enc_length.
  - destruct T as (l & -> & L & _). cbn [ser arr ty_size]. rewrite encs_length, L. reflexivity.
  - destruct N.
  - rewrite has_type_struct in T. destruct T as (_ & T). rewrite ser_struct. cbn [no_dyn] in N.
    induction IH as [|(n, u) r P F IHF]; [reflexivity|]. destruct N as (N1 & N2). inversion T; subst. cbn [ser_fields]. rewrite app_length.
    cbn [fst snd] in *. rewrite (P N1 _ H1). rewrite IHF by assumption. reflexivity.
  - destruct T as (q & d & -> & L1 & L2 & _). destruct (translation_ok q d) as (L3 & _).
    change (ser translation Dual (Obj [("r_", Obj [("arr_", Arr q)]); ("d_", Obj [("arr_", Arr d)])])) with (encs FP64 q ++ encs FP64 (translation q d)).
    rewrite app_length, !encs_length, L1, L3. reflexivity.
Qed.
Lemma one_record_size a stamp v : no_dyn (arg_ty a) -> has_type tUTC stamp -> has_type (arg_ty a) v -> forall n,
  length (record_bytes translation stamp [(n, a)] [v]) = 16 + ty_size (arg_ty a).
Proof.
  intros N Ts Tv n. unfold record_bytes. cbn [map combine log_all fst snd]. rewrite !app_length. rewrite (ser_size tUTC); [|cbn; tauto|assumption].
  rewrite ser_size by assumption. cbn [length]. change (ty_size tUTC) with 16. lia.
Qed.
End Sizes.

(** Objects of class type with the listed members. *)
Lemma has_type_obj fs m : all_fields (fun n u => has_type u (get n (Obj m))) fs -> has_type (Struct fs) (Obj m).
Proof. intros H. apply has_type_struct. split; [eexists; reflexivity|]. exact (proj1 (all_fields_Forall (fun n u => has_type u (get n (Obj m))) fs) H). Qed.
