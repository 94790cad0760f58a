(** Lemmas about LogDirModel.v. *)
From Coq Require Import String ZArith NArith List Bool Lia.
From Verif Require Import UtcTimeModel UtcTimeSpec UtcTimeProofs LogNameModel LogNameSpec LogNameProofs LogDirModel LogDirSpec.
Import ListNotations.
Local Open Scope Z_scope.

(** ** Maps *)
Section Map.
Context {A : Type}.
Implicit Types (l : list (string * A)).
Lemma find_remove k l : find k (remove k l) = None.
Proof.
  induction l as [|[x a] l IH]; [reflexivity|]. unfold remove in *. cbn [filter fst]. destruct (String.eqb_spec x k) as [->|N]; cbn [negb]; [exact IH|].
  cbn [find]. destruct (String.eqb_spec x k); [congruence|exact IH].
Qed.
Lemma find_remove_other k j l : k <> j -> find k (remove j l) = find k l.
Proof.
  intros N. induction l as [|[x a] l IH]; [reflexivity|]. unfold remove in *. cbn [filter fst find]. destruct (String.eqb_spec x j) as [->|Nj]; cbn [negb].
  - destruct (String.eqb_spec j k); [congruence|exact IH].
  - cbn [find]. rewrite IH. reflexivity.
Qed.
Lemma find_put k a l : find k (put k a l) = Some a.
Proof. unfold put. cbn [find]. rewrite String.eqb_refl. reflexivity. Qed.
Lemma find_put_other k j a l : k <> j -> find k (put j a l) = find k l.
Proof. intros N. unfold put. cbn [find]. destruct (String.eqb_spec j k); [congruence|]. apply find_remove_other. exact N. Qed.
End Map.
Lemma find_in_dir d f s : find d (in_dir d f s) = option_map f (find d s).
Proof. unfold in_dir. destruct (find d s) as [x|] eqn:E; [rewrite find_put; reflexivity|rewrite E; reflexivity]. Qed.
Lemma find_in_other d e f s : d <> e -> find d (in_dir e f s) = find d s.
Proof. intros N. unfold in_dir. destruct (find e s); [apply find_put_other; exact N|reflexivity]. Qed.

(** ** Opening a chain *)
Definition key_path (d : string) (k : Z) : string := join d (logKeyName k ++ ".log").
Definition add_keys (l : list (Z * string)) (e : string * manifest) : list (Z * string) :=
  fold_left (fun l k => emplace k (key_path (fst e) k) l) (m_keys (snd e)) l.
Lemma openLog_chain s d ds : chain s d ds -> Forall (fun e => m_keys (snd e) <> []) ds -> forall fuel r, (List.length ds <= fuel)%nat ->
  exists r', openLog fuel d s r = Opened r' /\ r_start r' = fold_left (fun t e => min_time t (m_start (snd e))) ds (r_start r) /\
  r_end r' = fold_left (fun t e => max_time t (m_end (snd e))) ds (r_end r) /\ r_streams r' = fold_left add_keys ds (r_streams r) /\
  r_amends r' = r_amends r ++ map fst (tl ds).
Proof.
  induction 1 as [d x m F M N|d x m a rest F M N C IH]; intros P fuel r L.
  - destruct fuel as [|n]; [cbn in L; lia|]. cbn [openLog]. rewrite F, M, N. inversion P as [|? ? K _]; subst. cbn [snd] in K. destruct (m_keys m) as [|k ks] eqn:E; [congruence|].
    eexists. split; [reflexivity|]. cbn [fold_left snd fst r_start r_end r_streams r_amends tl map]. rewrite app_nil_r. split; [reflexivity|]. split; [reflexivity|]. split; [|reflexivity].
    unfold add_keys. cbn [fst snd]. rewrite E. reflexivity.
  - destruct fuel as [|n]; [cbn in L; lia|]. cbn [openLog]. rewrite F, M, N. inversion P as [|? ? K Q]; subst. cbn [snd] in K. destruct (m_keys m) as [|k ks] eqn:E; [congruence|].
    cbn [r_start r_end r_streams r_amends].
    destruct (IH Q n (mkReader (min_time (r_start r) (m_start m)) (max_time (r_end r) (m_end m))
        (fold_left (fun l k => emplace k (join d (logKeyName k ++ ".log")) l) (k :: ks) (r_streams r)) (r_amends r ++ [a]))) as (r' & O & A1 & A2 & A3 & A4); [cbn in L; lia|].
    exists r'. split; [exact O|]. cbn [fold_left snd fst r_start r_end r_streams r_amends] in *. rewrite A1, A2, A3, A4. split; [reflexivity|]. split; [reflexivity|]. split.
    + unfold add_keys at 3. cbn [fst snd]. rewrite E. reflexivity.
    + rewrite <- app_assoc. f_equal. cbn [tl map app]. inversion C; subst; reflexivity.
Qed.
Lemma lookup_app k l m : lookup k (l ++ m) = match lookup k l with Some p => Some p | None => lookup k m end.
Proof. induction l as [|[x p] l IH]; [reflexivity|]. cbn [app lookup]. destruct (x =? k); [reflexivity|exact IH]. Qed.
Lemma existsb_lookup k l : existsb (fun e : Z * string => fst e =? k) l = match lookup k l with Some _ => true | None => false end.
Proof. induction l as [|[x p] l IH]; [reflexivity|]. cbn [existsb lookup fst]. destruct (x =? k); [reflexivity|exact IH]. Qed.
Lemma lookup_emplace j k p l : lookup j (emplace k p l) = match lookup j l with Some q => Some q | None => if k =? j then Some p else None end.
Proof.
  unfold emplace. rewrite existsb_lookup. destruct (lookup k l) as [q|] eqn:E.
  - destruct (lookup j l) eqn:F; [reflexivity|]. destruct (Z.eqb_spec k j) as [->|]; [congruence|reflexivity].
  - rewrite lookup_app. cbn [lookup]. reflexivity.
Qed.
Definition mem (k : Z) (l : list Z) : bool := existsb (fun x => x =? k) l.
Lemma mem_in k l : mem k l = true <-> In k l.
Proof. unfold mem. rewrite existsb_exists. split; [intros (x & I & E); apply Z.eqb_eq in E; subst; exact I|intros I; exists k; split; [exact I|apply Z.eqb_refl]]. Qed.
Lemma mem_not k l : mem k l = false <-> ~ In k l.
Proof. rewrite <- mem_in. destruct (mem k l); split; congruence. Qed.
Lemma lookup_emplace_all d j ks : forall l, lookup j (fold_left (fun l k => emplace k (key_path d k) l) ks l) =
  match lookup j l with Some q => Some q | None => if mem j ks then Some (key_path d j) else None end.
Proof.
  induction ks as [|k ks IH]; intros l; cbn [fold_left mem existsb]; [destruct (lookup j l); reflexivity|]. rewrite IH, lookup_emplace.
  destruct (lookup j l); [reflexivity|]. destruct (Z.eqb_spec k j) as [->|]; [reflexivity|]. reflexivity.
Qed.
Fixpoint first_with (k : Z) (ds : list (string * manifest)) : option string :=
  match ds with [] => None | (d, m) :: r => if mem k (m_keys m) then Some d else first_with k r end.
Lemma first_with_ok k d ds : first_with k ds = Some d <-> newest_with k d ds.
Proof.
  split.
  - induction ds as [|[e m] ds IH]; [discriminate|]. cbn [first_with]. destruct (mem k (m_keys m)) eqn:M; intros E.
    + injection E as <-. exists [], m, ds. split; [reflexivity|]. split; [apply mem_in; exact M|]. intros x [].
    + destruct (IH E) as (pre & m' & post & -> & I & N). exists ((e, m) :: pre), m', post. split; [reflexivity|]. split; [exact I|]. intros x [<-|J]; [apply mem_not; exact M|apply (N x J)].
  - intros (pre & m & post & -> & I & N). induction pre as [|[e m'] pre IH]; cbn [app first_with].
    + apply mem_in in I. rewrite I. reflexivity.
    + pose proof (N _ (or_introl eq_refl)) as Q. cbn [snd] in Q. apply mem_not in Q. rewrite Q. apply IH. intros x J. apply N. right. exact J.
Qed.
Lemma lookup_all k ds : forall l, lookup k (fold_left add_keys ds l) = match lookup k l with Some q => Some q | None => option_map (fun d => key_path d k) (first_with k ds) end.
Proof.
  induction ds as [|[d m] ds IH]; intros l; cbn [fold_left first_with]; [destruct (lookup k l); reflexivity|]. rewrite IH. unfold add_keys. cbn [fst snd]. rewrite lookup_emplace_all.
  destruct (lookup k l); [reflexivity|]. destruct (mem k (m_keys m)); reflexivity.
Qed.
Lemma emplace_nodup k p l : NoDup (map fst l) -> NoDup (map fst (emplace k p l)).
Proof.
  intros N. unfold emplace. destruct (existsb (fun e => fst e =? k) l) eqn:E; [exact N|]. rewrite map_app. cbn [map fst]. rewrite existsb_lookup in E.
  assert (I : ~ In k (map fst l)). { intros I. clear N. induction l as [|[x q] l IH]; [destruct I|]. cbn [lookup] in E. cbn [map fst] in I. destruct (Z.eqb_spec x k); [discriminate E|]. destruct I as [->|I]; [congruence|]. apply (IH E I). }
  clear E. induction l as [|[x q] l IH]; cbn [map fst app]; [constructor; [intros []|constructor]|]. cbn [map fst] in *. inversion N as [|? ? Nx N']; subst. constructor.
  - rewrite in_app_iff. intros [J|[J|[]]]; [contradiction|]. subst. apply I. left. reflexivity.
  - apply IH; [exact N'|]. intros J. apply I. right. exact J.
Qed.
Lemma add_nodup ds : forall l, NoDup (map fst l) -> NoDup (map fst (fold_left add_keys ds l)).
Proof.
  induction ds as [|[d m] ds IH]; intros l N; [exact N|]. cbn [fold_left]. apply IH. unfold add_keys. cbn [fst snd]. generalize (m_keys m). intros ks. revert l N.
  induction ks as [|k ks IHk]; intros l N; [exact N|]. cbn [fold_left]. apply IHk. apply emplace_nodup. exact N.
Qed.

Lemma utc_max_top t : normal t -> in64 (sec t) -> instant t <= instant utc_max.
Proof. unfold normal, in64, instant, utc_max. cbn [sec nsec]. lia. Qed.
Lemma utc_min_bottom t : normal t -> in64 (sec t) -> instant utc_min <= instant t.
Proof. unfold normal, in64, instant, utc_min. cbn [sec nsec]. lia. Qed.
Lemma normal_max : normal utc_max. Proof. unfold normal, utc_max; cbn [nsec]; lia. Qed.
Lemma normal_min : normal utc_min. Proof. unfold normal, utc_min; cbn [nsec]; lia. Qed.
Lemma min_fold ts : forall t, normal t -> Forall normal ts -> let r := fold_left min_time ts t in normal r /\ In r (t :: ts) /\ forall u, In u (t :: ts) -> instant r <= instant u.
Proof.
  induction ts as [|x ts IH]; intros t N F; cbn [fold_left].
  - split; [exact N|]. split; [left; reflexivity|]. intros u [->|[]]. lia.
  - inversion F as [|? ? Nx F']; subst. assert (Nm : normal (min_time t x)) by (unfold min_time; destruct (lt x t); assumption).
    destruct (IH (min_time t x) Nm F') as (R & I & M). split; [exact R|].
    assert (B : (min_time t x = t \/ min_time t x = x) /\ instant (min_time t x) <= instant t /\ instant (min_time t x) <= instant x).
    { unfold min_time. rewrite (lt_ok x t Nx N). destruct (Z.ltb_spec (instant x) (instant t)); split; auto; lia. }
    destruct B as (B1 & B2 & B3). split.
    + destruct I as [I|I]; [rewrite <- I; destruct B1 as [-> | ->]; [left|right; left]; reflexivity|right; right; exact I].
    + intros u [<-|[<-|J]]; [specialize (M _ (or_introl eq_refl)); lia|specialize (M _ (or_introl eq_refl)); lia|apply M; right; exact J].
Qed.
Lemma max_fold ts : forall t, normal t -> Forall normal ts -> let r := fold_left max_time ts t in normal r /\ In r (t :: ts) /\ forall u, In u (t :: ts) -> instant u <= instant r.
Proof.
  induction ts as [|x ts IH]; intros t N F; cbn [fold_left].
  - split; [exact N|]. split; [left; reflexivity|]. intros u [->|[]]. lia.
  - inversion F as [|? ? Nx F']; subst. assert (Nm : normal (max_time t x)) by (unfold max_time; destruct (lt t x); assumption).
    destruct (IH (max_time t x) Nm F') as (R & I & M). split; [exact R|].
    assert (B : (max_time t x = t \/ max_time t x = x) /\ instant t <= instant (max_time t x) /\ instant x <= instant (max_time t x)).
    { unfold max_time. rewrite (lt_ok t x N Nx). destruct (Z.ltb_spec (instant t) (instant x)); split; auto; lia. }
    destruct B as (B1 & B2 & B3). split.
    + destruct I as [I|I]; [rewrite <- I; destruct B1 as [-> | ->]; [left|right; left]; reflexivity|right; right; exact I].
    + intros u [<-|[<-|J]]; [specialize (M _ (or_introl eq_refl)); lia|specialize (M _ (or_introl eq_refl)); lia|apply M; right; exact J].
Qed.
Lemma fold_map {A B C} (f : A -> B -> A) (g : C -> B) l : forall a, fold_left (fun a x => f a (g x)) l a = fold_left f (map g l) a.
Proof. induction l as [|x l IH]; intros a; [reflexivity|]. cbn [fold_left map]. apply IH. Qed.
Lemma start_earliest ts : ts <> [] -> Forall (fun t => normal t /\ in64 (sec t)) ts -> earliest (fold_left min_time ts utc_max) ts.
Proof.
  intros E F. assert (Fn : Forall normal ts) by (eapply Forall_impl; [|exact F]; intros t (N & _); exact N). destruct (min_fold ts utc_max normal_max Fn) as (R & I & M).
  destruct I as [I|I].
  - split; [|intros u J; apply M; right; exact J]. destruct ts as [|x ts]; [congruence|]. left. rewrite Forall_forall in F. destruct (F x (or_introl eq_refl)) as (Nx & Bx).
    apply instant_inj; [exact Nx|exact R|]. pose proof (M x (or_intror (or_introl eq_refl))). rewrite <- I in *. pose proof (utc_max_top x Nx Bx). lia.
  - split; [exact I|]. intros u J. apply M. right. exact J.
Qed.
Lemma end_latest ts : ts <> [] -> Forall (fun t => normal t /\ in64 (sec t)) ts -> latest (fold_left max_time ts utc_min) ts.
Proof.
  intros E F. assert (Fn : Forall normal ts) by (eapply Forall_impl; [|exact F]; intros t (N & _); exact N). destruct (max_fold ts utc_min normal_min Fn) as (R & I & M).
  destruct I as [I|I].
  - split; [|intros u J; apply M; right; exact J]. destruct ts as [|x ts]; [congruence|]. left. rewrite Forall_forall in F. destruct (F x (or_introl eq_refl)) as (Nx & Bx).
    apply instant_inj; [exact Nx|exact R|]. pose proof (M x (or_intror (or_introl eq_refl))). rewrite <- I in *. pose proof (utc_min_bottom x Nx Bx). lia.
  - split; [exact I|]. intros u J. apply M. right. exact J.
Qed.
Lemma chain_nonempty s d ds : chain s d ds -> ds <> [].
Proof. intros C. inversion C; discriminate. Qed.
Theorem open_chain s d ds fuel : chain s d ds -> Forall proper ds -> (List.length ds <= fuel)%nat ->
  exists r, openLog fuel d s reader0 = Opened r /\
  (forall k p, lookup k (r_streams r) = Some p <-> exists e, newest_with k e ds /\ (p = e ++ "/" ++ logKeyName k ++ ".log")%string) /\ NoDup (map fst (r_streams r)) /\
  earliest (r_start r) (map (fun e => m_start (snd e)) ds) /\ latest (r_end r) (map (fun e => m_end (snd e)) ds) /\ d :: r_amends r = map fst ds.
Proof.
  intros C P L. assert (K : Forall (fun e => m_keys (snd e) <> []) ds) by (eapply Forall_impl; [|exact P]; intros e Q; apply Q).
  destruct (openLog_chain s d ds C K fuel reader0 L) as (r & O & A1 & A2 & A3 & A4). exists r. split; [exact O|]. cbn [reader0 r_start r_end r_streams r_amends] in *.
  rewrite (fold_map min_time (fun e : string * manifest => m_start (snd e))) in A1. rewrite (fold_map max_time (fun e : string * manifest => m_end (snd e))) in A2.
  pose proof (chain_nonempty _ _ _ C) as NE. split; [|split; [|split; [|split]]].
  - intros k p. rewrite A3, lookup_all. cbn [lookup]. split.
    + destruct (first_with k ds) as [e|] eqn:E; [|discriminate]. cbn [option_map]. intros J. injection J as <-. exists e. pose proof (proj1 (first_with_ok k e ds) E) as Q. split; [exact Q|].
      destruct Q as (pre & m & post & -> & _ & _). apply join_plain. apply Forall_app in P as (_ & P). inversion P as [|? ? P1 _]; subst. apply P1.
    + intros (e & Q & ->). rewrite (proj2 (first_with_ok k e ds) Q). cbn [option_map]. f_equal.
      destruct Q as (pre & m & post & -> & _ & _). apply join_plain. apply Forall_app in P as (_ & P). inversion P as [|? ? P1 _]; subst. apply P1.
  - rewrite A3. apply add_nodup. constructor.
  - rewrite A1. apply start_earliest; [destruct ds; [congruence|discriminate]|]. apply Forall_map. eapply Forall_impl; [|exact P]. intros e (_ & _ & Q1 & _ & Q3 & _). split; assumption.
  - rewrite A2. apply end_latest; [destruct ds; [congruence|discriminate]|]. apply Forall_map. eapply Forall_impl; [|exact P]. intros e (_ & _ & _ & Q2 & _ & Q4). split; assumption.
  - rewrite A4. cbn [app]. inversion C; subst; reflexivity.
Qed.

(** ** Python *)
Lemma lookup_zip k d ks : forall acc, lookup k (fold_left (fun acc (e : Z * string) => (fst e, join d (snd e)) :: acc) (combine ks (map logKeyName ks)) acc) =
  if mem k ks then Some (join d (logKeyName k)) else lookup k acc.
Proof.
  induction ks as [|x ks IH]; intros acc; [reflexivity|]. cbn [map combine fold_left fst snd mem existsb]. rewrite IH. cbn [lookup].
  fold (mem k ks). destruct (mem k ks); [rewrite orb_true_r; reflexivity|]. rewrite orb_false_r. destruct (Z.eqb_spec x k) as [->|]; reflexivity.
Qed.
Lemma py_chain s d ds : chain s d ds -> Forall proper ds -> Forall (fun e => py_is_log (fst e) = true /\ m_names (snd e) = map logKeyName (m_keys (snd e))) ds -> forall fuel, (List.length ds <= fuel)%nat ->
  exists fl, get_log_files fuel d s = Opened fl /\ forall k, lookup k fl = option_map (fun e => join e (logKeyName k)) (first_with k ds).
Proof.
  induction 1 as [d x m F M N|d x m a rest F M N C IH]; intros P Y fuel L; (destruct fuel as [|n]; [cbn in L; lia|]); cbn [get_log_files];
    inversion P as [|? ? P1 P2]; subst; inversion Y as [|? ? (Y1 & Y3) Y2]; subst; cbn [fst snd] in *; rewrite Y1, F, M, N; destruct P1 as (_ & K & _); cbn [snd] in K.
  - exists (py_zip d m). split; [destruct (m_keys m); [congruence|reflexivity]|]. intros k. unfold py_zip. rewrite Y3, lookup_zip. cbn [first_with lookup]. destruct (mem k (m_keys m)); reflexivity.
  - destruct (IH P2 Y2 n) as (fl & G & Lk); [cbn in L; lia|]. exists (py_zip d m ++ fl). rewrite G. split; [destruct (m_keys m); [congruence|reflexivity]|].
    intros k. rewrite lookup_app. unfold py_zip. rewrite Y3, lookup_zip, Lk. cbn [first_with lookup]. destruct (mem k (m_keys m)); reflexivity.
Qed.
Theorem py_open_chain s d ds fuel : chain s d ds -> Forall proper ds -> Forall (fun e => py_is_log (fst e) = true /\ m_names (snd e) = map logKeyName (m_keys (snd e))) ds -> (List.length ds <= fuel)%nat ->
  exists fl, get_log_files fuel d s = Opened fl /\ forall k p, lookup k fl = Some p <-> exists e, newest_with k e ds /\ (p = e ++ "/" ++ logKeyName k)%string.
Proof.
  intros C P Y L. destruct (py_chain s d ds C P Y fuel L) as (fl & G & Lk). exists fl. split; [exact G|]. intros k p. rewrite Lk. split.
  - destruct (first_with k ds) as [e|] eqn:E; [|discriminate]. cbn [option_map]. intros J. injection J as <-. exists e. pose proof (proj1 (first_with_ok k e ds) E) as Q. split; [exact Q|].
    destruct Q as (pre & m & post & -> & _ & _). apply join_plain. apply Forall_app in P as (_ & P). inversion P as [|? ? P1 _]; subst. apply P1.
  - intros (e & Q & ->). rewrite (proj2 (first_with_ok k e ds) Q). cbn [option_map]. f_equal.
    destruct Q as (pre & m & post & -> & _ & _). apply join_plain. apply Forall_app in P as (_ & P). inversion P as [|? ? P1 _]; subst. apply P1.
Qed.

(** ** Writing *)
Lemma run_app a : forall b st, run (a ++ b) st = match run a st with None => None | Some st' => run b st' end.
Proof. induction a as [|o a IH]; intros b st; [reflexivity|]. cbn [app run]. destruct (step o st); [apply IH|reflexivity]. Qed.
(** Directories not opened are left alone. *)
Definition within (D : list string) (l : logger) : Prop := In (l_dir l) D /\ Forall (fun w => In (w_dir w) D) (l_streams l).
Lemma w_find_in k l w : w_find k l = Some w -> In w l.
Proof. induction l as [|x l IH]; [discriminate|]. cbn [w_find]. destruct (w_key x =? k); intros E; [injection E as <-; left; reflexivity|right; apply IH; exact E]. Qed.
Lemma w_count_within D k l : Forall (fun w => In (w_dir w) D) l -> Forall (fun w => In (w_dir w) D) (w_count k l).
Proof. induction 1 as [|w l W F IH]; [constructor|]. cbn [w_count]. destruct (w_key w =? k); constructor; assumption. Qed.
Lemma end_streams_other d ws : forall s, Forall (fun w => d <> w_dir w) ws -> find d (fold_left (fun s w => end_stream w s) ws s) = find d s.
Proof. induction ws as [|w ws IH]; intros s F; [reflexivity|]. inversion F; subst. cbn [fold_left]. rewrite IH by assumption. unfold end_stream. apply find_in_other. assumption. Qed.
Lemma close_other D d t l s : within D l -> ~ In d D -> find d (snd (close_log t l s)) = find d s.
Proof.
  intros (A & B) N. unfold close_log. cbn [snd]. rewrite find_in_other by (intros ->; contradiction). apply end_streams_other.
  eapply Forall_impl; [|exact B]. intros w I ->. contradiction.
Qed.
Lemma step_frame D o l s l' s' : within D l -> incl (opened_dirs [o]) D -> step o (l, s) = Some (l', s') -> within D l' /\ forall d, ~ In d D -> find d s' = find d s.
Proof.
  intros (A & B) I E. destruct o as [base f start|k|k bytes|other|t|t]; cbn [step] in E.
  - unfold open_log in E. injection E as <- <-. assert (J : In (join base (log_id f)) D) by (apply I; left; reflexivity). split; [split; [exact J|exact B]|].
    intros d N. rewrite find_put_other, find_remove_other by (intros ->; contradiction). reflexivity.
  - unfold init_stream in E. destruct (w_find k (l_streams l)); [discriminate E|]. injection E as <- <-. split.
    + split; [exact A|]. cbn [l_streams]. apply Forall_app. split; [exact B|]. constructor; [exact A|constructor].
    + intros d N. apply find_in_other. intros ->. contradiction.
  - unfold log_record in E. destruct (w_find k (l_streams l)) as [w|] eqn:W; [|discriminate E]. injection E as <- <-. split.
    + split; [exact A|]. apply w_count_within. exact B.
    + intros d N. apply find_in_other. intros ->. apply N. rewrite Forall_forall in B. apply B. apply (w_find_in _ _ _ W).
  - injection E as <- <-. split; [split; [exact A|exact B]|]. reflexivity.
  - assert (X : (l', s') = close_log t l s) by congruence. clear E. assert (Es : s' = snd (close_log t l s)) by (rewrite <- X; reflexivity). assert (El : l' = fst (close_log t l s)) by (rewrite <- X; reflexivity). subst l' s'.
    split; [split; [exact A|constructor]|]. intros d N. apply (close_other D); [split; assumption|exact N].
  - assert (X : (l', s') = close_log t l s) by congruence. clear E. assert (Es : s' = snd (close_log t l s)) by (rewrite <- X; reflexivity). assert (El : l' = fst (close_log t l s)) by (rewrite <- X; reflexivity). subst l' s'.
    split; [split; [exact A|constructor]|]. intros d N. apply (close_other D); [split; assumption|exact N].
Qed.
Lemma run_frame D ops : forall l s l' s', within D l -> incl (opened_dirs ops) D -> run ops (l, s) = Some (l', s') -> within D l' /\ forall d, ~ In d D -> find d s' = find d s.
Proof.
  induction ops as [|o ops IH]; intros l s l' s' W I E; cbn [run] in E; [injection E as <- <-; split; [exact W|reflexivity]|].
  destruct (step o (l, s)) as [[l1 s1]|] eqn:S1; [|discriminate E]. change (o :: ops) with ([o] ++ ops) in I. unfold opened_dirs in I. rewrite flat_map_app in I.
  destruct (step_frame D o l s l1 s1 W) as (W1 & F1); [intros x J; apply I; apply in_or_app; left; exact J|exact S1|].
  destruct (IH l1 s1 l' s' W1) as (W2 & F2); [intros x J; apply I; apply in_or_app; right; exact J|exact E|]. split; [exact W2|]. intros d N. rewrite (F2 d N). apply F1. exact N.
Qed.
Theorem others_untouched base f start s ops l' s' d :
  run ops (construct base f start s) = Some (l', s') -> ~ In d (opened_dirs (Open base f start :: ops)) -> find d s' = find d s.
Proof.
  intros E N. unfold construct in E. destruct (open_log base f start [] s) as [l0 s0] eqn:O. unfold open_log in O. injection O as <- <-.
  set (D := opened_dirs (Open base f start :: ops)) in *.
  match type of E with run ops (?l, ?s0) = _ => assert (W : within D l) by (split; [left; reflexivity|constructor]); destruct (run_frame D ops l s0 l' s' W (fun x J => or_intror J) E) as (_ & F) end.
  rewrite (F d N). assert (N2 : d <> join base (log_id f)) by (intros ->; apply N; left; reflexivity). rewrite find_put_other, find_remove_other by exact N2. reflexivity.
Qed.

(** Before close there is no manifest. *)
Definition bare (D : list string) (s : fs) : Prop := forall d x, In d D -> find d s = Some x -> d_manifest x = None.
Lemma bare_in_dir D d f s : bare D s -> (forall x, d_manifest (f x) = d_manifest x) -> bare D (in_dir d f s).
Proof.
  intros B F e x I E. destruct (String.eqb_spec e d) as [->|N].
  - rewrite find_in_dir in E. destruct (find d s) as [y|] eqn:Y; [|discriminate E]. cbn [option_map] in E. injection E as <-. rewrite F. apply (B d y I Y).
  - rewrite find_in_other in E by exact N. apply (B e x I E).
Qed.
Lemma step_bare D o l s l' s' : no_close o -> bare D s -> step o (l, s) = Some (l', s') -> bare D s'.
Proof.
  intros N B E. destruct o as [base f start|k|k bytes|other|t|t]; cbn [step] in E; [| | | |destruct N|destruct N].
  - unfold open_log in E. injection E as <- <-. intros d x I F. destruct (String.eqb_spec d (join base (log_id f))) as [->|Nd].
    + rewrite find_put in F. injection F as <-. reflexivity.
    + rewrite find_put_other, find_remove_other in F by exact Nd. apply (B d x I F).
  - unfold init_stream in E. destruct (w_find k (l_streams l)); [discriminate E|]. injection E as <- <-. apply bare_in_dir; [exact B|reflexivity].
  - unfold log_record in E. destruct (w_find k (l_streams l)); [|discriminate E]. injection E as <- <-. apply bare_in_dir; [exact B|]. intros x. unfold append_file. destruct (find (logKeyName k) (d_log x)); reflexivity.
  - injection E as <- <-. exact B.
Qed.
Lemma run_bare ops : forall D l s l' s', Forall no_close ops -> bare D s -> run ops (l, s) = Some (l', s') -> bare D s'.
Proof.
  induction ops as [|o ops IH]; intros D l s l' s' N B E; cbn [run] in E; [injection E as <- <-; exact B|]. inversion N; subst. destruct (step o (l, s)) as [[l1 s1]|] eqn:S1; [|discriminate E].
  apply (IH D l1 s1 l' s'); [assumption| |exact E]. apply (step_bare D o l s l1 s1); assumption.
Qed.
Theorem crash_unreadable base f start s ops l' s' fuel : Forall no_close ops -> run ops (construct base f start s) = Some (l', s') ->
  openLog (S fuel) (join base (log_id f)) s' reader0 = Failed.
Proof.
  intros N E. unfold construct, open_log in E. set (d := join base (log_id f)) in *.
  assert (B : bare [d] s'). { apply (run_bare ops [d] _ _ l' s' N) with (2 := E). intros e x [<-|[]] F. rewrite find_put in F. injection F as <-. reflexivity. }
  cbn [openLog]. destruct (find d s') as [x|] eqn:F; [|reflexivity]. rewrite (B d x (or_introl eq_refl) F). reflexivity.
Qed.

(** What a log holds when it is closed. *)
Record holds (d : string) (start : utc) (ops : list op) (l : logger) (s : fs) : Prop := {
  h_dir : l_dir l = d; h_start : l_start l = start; h_keys : l_keys l = keys_of ops; h_amends : l_amends l = amended ops;
  h_streams : l_streams l = map (fun k => mkW d k (count_of k ops)) (keys_of ops);
  h_none : forall k, ~ In k (keys_of ops) -> bytes_of k ops = [] /\ count_of k ops = 0;
  h_nodup : NoDup (keys_of ops);
  h_files : exists x, find d s = Some x /\ d_yml x = [] /\ forall k, In k (keys_of ops) -> find (logKeyName k) (d_log x) = Some (bytes_of k ops) }.
Lemma w_find_map d (c : Z -> Z) k ks : w_find k (map (fun j => mkW d j (c j)) ks) = if mem k ks then Some (mkW d k (c k)) else None.
Proof. induction ks as [|j ks IH]; [reflexivity|]. cbn [map w_find w_key mem existsb]. destruct (Z.eqb_spec j k) as [->|]; [reflexivity|exact IH]. Qed.
Lemma w_count_map d (c : Z -> Z) k ks : NoDup ks -> In k ks -> w_count k (map (fun j => mkW d j (c j)) ks) = map (fun j => mkW d j (c j + (if j =? k then 1 else 0))) ks.
Proof.
  induction ks as [|j ks IH]; intros N I; [destruct I|]. inversion N as [|? ? Nj N']; subst. cbn [map w_count w_key w_num w_dir]. destruct (Z.eqb_spec j k) as [->|D].
  - f_equal. apply map_ext_in. intros i J. f_equal. destruct (Z.eqb_spec i k) as [->|]; [contradiction|lia].
  - destruct I as [->|I]; [congruence|]. rewrite (IH N' I). f_equal. f_equal. lia.
Qed.
Lemma keys_snoc ops o : keys_of (ops ++ [o]) = keys_of ops ++ match o with Init k => [k] | _ => [] end.
Proof. unfold keys_of. rewrite flat_map_app. cbn [flat_map]. rewrite app_nil_r. reflexivity. Qed.
Lemma bytes_snoc k ops o : bytes_of k (ops ++ [o]) = bytes_of k ops ++ match o with Rec j b => if j =? k then b else [] | _ => [] end.
Proof. unfold bytes_of. rewrite flat_map_app. cbn [flat_map]. rewrite app_nil_r. reflexivity. Qed.
Lemma count_snoc k ops o : count_of k (ops ++ [o]) = count_of k ops + match o with Rec j _ => if j =? k then 1 else 0 | _ => 0 end.
Proof. unfold count_of. rewrite filter_app, app_length, Nat2Z.inj_add. f_equal. cbn [filter]. destruct o as [| |j| | |]; try reflexivity. destruct (j =? k); reflexivity. Qed.
Lemma amended_snoc ops o : amended (ops ++ [o]) = match o with Amends d => Some d | _ => amended ops end.
Proof. unfold amended. rewrite fold_left_app. cbn [fold_left]. destruct o; reflexivity. Qed.
Lemma nodup_app_l {A} (l m : list A) : NoDup (l ++ m) -> NoDup l.
Proof. induction l as [|x l IH]; intros N; [constructor|]. cbn [app] in N. inversion N as [|? ? X Y]; subst. constructor; [intros I; apply X; apply in_or_app; left; exact I|apply IH; exact Y]. Qed.
Lemma name_in k l : In k l -> In (logKeyName k) (map logKeyName l).
Proof. apply in_map. Qed.
Lemma nodup_last {A} (l : list A) x : NoDup (l ++ [x]) -> ~ In x l.
Proof. intros N. apply NoDup_remove_2 in N. rewrite app_nil_r in N. exact N. Qed.
Lemma nodup_snoc {A} (l : list A) x : NoDup l -> ~ In x l -> NoDup (l ++ [x]).
Proof.
  induction l as [|y l IH]; intros N I; cbn [app]; [constructor; [intros []|constructor]|]. inversion N as [|? ? X Y]; subst. constructor.
  - rewrite in_app_iff. intros [J|[J|[]]]; [contradiction|subst; apply I; left; reflexivity].
  - apply IH; [exact Y|]. intros J. apply I. right. exact J.
Qed.
Lemma names_inj ks k j : NoDup (map logKeyName ks) -> In k ks -> In j ks -> logKeyName k = logKeyName j -> k = j.
Proof.
  induction ks as [|x ks IH]; intros N K J E; [destruct K|]. cbn [map] in N. inversion N as [|? ? X Y]; subst. destruct K as [->|K], J as [->|J]; [reflexivity| | |apply IH; assumption].
  - destruct X. rewrite E. apply in_map. exact J.
  - destruct X. rewrite <- E. apply in_map. exact K.
Qed.
Lemma holds_run base f start s ops : forall l' s', Forall adds ops -> NoDup (map logKeyName (keys_of ops)) -> run ops (construct base f start s) = Some (l', s') ->
  holds (join base (log_id f)) start ops l' s'.
Proof.
  set (d := join base (log_id f)). induction ops as [|o ops IH] using rev_ind; intros l' s' A N E.
  - cbn [run] in E. unfold construct, open_log in E. injection E as <- <-. fold d. constructor; try reflexivity.
    + intros k _. split; reflexivity.
    + constructor.
    + exists (mkDir None [] []). split; [apply find_put|]. split; [reflexivity|]. intros k [].
  - apply Forall_app in A as (A & Ao). inversion Ao as [|? ? Ao' _]; subst. rewrite run_app in E. destruct (run ops (construct base f start s)) as [[l1 s1]|] eqn:R; [|discriminate E].
    assert (N1 : NoDup (map logKeyName (keys_of ops))) by (rewrite keys_snoc, map_app in N; apply nodup_app_l in N; exact N).
    destruct (IH l1 s1 A N1 eq_refl) as [H1 H2 H3 H4 H5 H6 H7 (x & H8 & H9 & H10)]. clear IH. cbn [run] in E. destruct (step o (l1, s1)) as [[l2 s2]|] eqn:S1; [|discriminate E].
    injection E as <- <-. destruct o as [b' f' st'|k|k bytes|other|t|t]; cbn in Ao'; try contradiction; cbn [step] in S1.
    + unfold init_stream in S1. rewrite H5, w_find_map in S1. destruct (mem k (keys_of ops)) eqn:M; [discriminate S1|]. apply mem_not in M. injection S1 as <- <-.
      rewrite keys_snoc, map_app in N. cbn [map] in N. destruct (H6 k M) as (B0 & C0).
      constructor; cbn [l_dir l_start l_keys l_amends l_streams].
      * exact H1.
      * exact H2.
      * rewrite keys_snoc, H3. reflexivity.
      * rewrite amended_snoc, H4. reflexivity.
      * rewrite keys_snoc, map_app. cbn [map]. f_equal.
        -- apply map_ext. intros j. rewrite count_snoc. f_equal. lia.
        -- rewrite count_snoc, C0, H1. reflexivity.
      * intros j J. rewrite keys_snoc in J. rewrite bytes_snoc, count_snoc. destruct (H6 j) as (Bj & Cj); [intros I; apply J; apply in_or_app; left; exact I|]. rewrite Bj, Cj. split; reflexivity.
      * rewrite keys_snoc. apply nodup_snoc; assumption.
      * eexists. rewrite H1, find_in_dir, H8. cbn [option_map]. split; [reflexivity|]. split; [exact H9|]. intros j J. cbn [d_log]. rewrite keys_snoc in J. rewrite bytes_snoc, app_nil_r.
        apply nodup_last in N. apply in_app_iff in J as [J|[<-|[]]].
        -- rewrite find_put_other; [apply H10; exact J|]. intros Q. apply N. rewrite <- Q. apply in_map. exact J.
        -- rewrite find_put, B0. reflexivity.
    + unfold log_record in S1. rewrite H5, w_find_map in S1. destruct (mem k (keys_of ops)) eqn:M; [|discriminate S1]. apply mem_in in M. injection S1 as <- <-.
      assert (Ks : keys_of (ops ++ [Rec k bytes]) = keys_of ops) by (rewrite keys_snoc; apply app_nil_r).
      constructor; cbn [l_dir l_start l_keys l_amends l_streams]; rewrite ?Ks.
      * exact H1.
      * exact H2.
      * exact H3.
      * rewrite amended_snoc. exact H4.
      * rewrite (w_count_map d (fun j => count_of j ops) k (keys_of ops) H7 M). apply map_ext. intros j. rewrite count_snoc. f_equal. rewrite Z.eqb_sym. reflexivity.
      * intros j J. rewrite bytes_snoc, count_snoc. destruct (H6 j J) as (Bj & Cj). rewrite Bj, Cj. destruct (Z.eqb_spec k j) as [->|]; [contradiction|]. split; reflexivity.
      * exact H7.
      * eexists. cbn [w_dir]. rewrite find_in_dir, H8. cbn [option_map]. split; [reflexivity|]. unfold append_file. rewrite (H10 k M). cbn [d_yml d_log]. split; [exact H9|]. intros j J. rewrite bytes_snoc.
        destruct (Z.eqb_spec k j) as [->|D]; [rewrite find_put; reflexivity|]. rewrite app_nil_r, find_put_other; [apply H10; exact J|]. intros Q. apply D. symmetry. apply (names_inj (keys_of ops)); [exact N1|exact J|exact M|exact Q].
    + injection S1 as <- <-. assert (Ks : keys_of (ops ++ [Amends other]) = keys_of ops) by (rewrite keys_snoc; apply app_nil_r).
      constructor; cbn [amend l_dir l_start l_keys l_amends l_streams]; rewrite ?Ks.
      * exact H1.
      * exact H2.
      * exact H3.
      * rewrite amended_snoc. reflexivity.
      * rewrite H5. apply map_ext. intros j. rewrite count_snoc. f_equal. lia.
      * intros j J. rewrite bytes_snoc, count_snoc, app_nil_r, Z.add_0_r. apply H6. exact J.
      * exact H7.
      * exists x. split; [exact H8|]. split; [exact H9|]. intros j J. rewrite bytes_snoc, app_nil_r. apply H10. exact J.
Qed.
Lemma end_streams_here d (c : Z -> Z) ks : forall s x, NoDup (map logKeyName ks) -> find d s = Some x ->
  exists y, find d (fold_left (fun s w => end_stream w s) (map (fun k => mkW d k (c k)) ks) s) = Some y /\ d_manifest y = d_manifest x /\ d_log y = d_log x /\
  (forall k, In k ks -> find (logKeyName k) (d_yml y) = Some (k, c k)) /\ forall n, ~ In n (map logKeyName ks) -> find n (d_yml y) = find n (d_yml x).
Proof.
  induction ks as [|k ks IH]; intros s x N F.
  - exists x. split; [exact F|]. split; [reflexivity|]. split; [reflexivity|]. split; [intros k []|reflexivity].
  - cbn [map] in N. inversion N as [|? ? Nk N']; subst. cbn [map fold_left].
    destruct (IH (end_stream (mkW d k (c k)) s) (mkDir (d_manifest x) (d_log x) (put (logKeyName k) (k, c k) (d_yml x))) N') as (y & Y & M & Lg & K & O).
    { unfold end_stream. cbn [w_dir w_key w_num]. rewrite find_in_dir, F. reflexivity. }
    exists y. split; [exact Y|]. split; [exact M|]. split; [exact Lg|]. cbn [d_yml] in O. split.
    + intros j [<-|J]; [|apply K; exact J]. rewrite (O (logKeyName k) Nk). apply find_put.
    + intros n I. cbn [map] in I. rewrite O by (intros J; apply I; right; exact J). apply find_put_other. intros ->. apply I. left. reflexivity.
Qed.
Theorem closed_log base f start s ops t l' s' :
  Forall adds ops -> NoDup (map logKeyName (keys_of ops)) -> run (ops ++ [Close t]) (construct base f start s) = Some (l', s') ->
  exists x, find (join base (log_id f)) s' = Some x /\ d_manifest x = Some (mkMan start t (keys_of ops) (map logKeyName (keys_of ops)) (amended ops)) /\
  forall k, In k (keys_of ops) -> find (logKeyName k) (d_log x) = Some (bytes_of k ops) /\ find (logKeyName k) (d_yml x) = Some (k, count_of k ops).
Proof.
  intros A N E. rewrite run_app in E. destruct (run ops (construct base f start s)) as [[l1 s1]|] eqn:R; [|discriminate E]. destruct (holds_run base f start s ops l1 s1 A N R) as [H1 H2 H3 H4 H5 H6 H7 (x & H8 & H9 & H10)].
  cbn [run step] in E. unfold close_log in E. injection E as <- <-. set (d := join base (log_id f)) in *. rewrite H1, H2, H3, H4, H5.
  destruct (end_streams_here d (fun k => count_of k ops) (keys_of ops) s1 x N H8) as (y & Y & M & Lg & K & O). rewrite find_in_dir, Y. cbn [option_map]. eexists. split; [reflexivity|].
  cbn [d_manifest d_log d_yml]. split; [reflexivity|]. intros k I. split; [rewrite Lg; apply H10; exact I|apply K; exact I].
Qed.

(** ** When opening returns *)
Lemma ends_returns s d : ends s d -> exists n, forall fuel r, (n <= fuel)%nat -> openLog fuel d s r <> Running.
Proof.
  induction 1 as [d F|d x F M|d x m F M K|d x m F M A|d x m a F M A E (n & IH)].
  1-4: exists 1%nat; intros [|fuel] r L; [lia|]; cbn [openLog]; rewrite F; try rewrite M; try rewrite K; try rewrite A; try discriminate; destruct (m_keys m); discriminate.
  exists (S n). intros [|fuel] r L; [lia|]. cbn [openLog]. rewrite F, M, A. destruct (m_keys m); [discriminate|]. apply IH. lia.
Qed.
Lemma returns_ends s : forall fuel d r, openLog fuel d s r <> Running -> ends s d.
Proof.
  induction fuel as [|n IH]; intros d r O; [destruct O; reflexivity|]. cbn [openLog] in O. destruct (find d s) as [x|] eqn:F; [|apply ends_missing; exact F].
  destruct (d_manifest x) as [m|] eqn:M; [|apply (ends_no_manifest s d x F M)]. destruct (m_keys m) as [|k ks] eqn:K; [apply (ends_no_keys s d x m F M K)|].
  destruct (m_amends m) as [a|] eqn:A; [|apply (ends_last s d x m F M A)]. apply (ends_more s d x m a F M A). apply (IH _ _ O).
Qed.

(** ** Closing *)
Lemma reopened_same base f start t l s : open_log base f start (l_streams (fst (close_log t l s))) (snd (close_log t l s)) = construct base f start (snd (close_log t l s)).
Proof. reflexivity. Qed.
Theorem destroyed_log base f start s ops t now l' s' :
  Forall adds ops -> NoDup (map logKeyName (keys_of ops)) -> run (ops ++ [Close t; Destroy now]) (construct base f start s) = Some (l', s') ->
  exists x, find (join base (log_id f)) s' = Some x /\ d_manifest x = Some (mkMan start now (keys_of ops) (map logKeyName (keys_of ops)) (amended ops)).
Proof.
  intros A N E. change (ops ++ [Close t; Destroy now]) with (ops ++ [Close t] ++ [Destroy now]) in E. rewrite app_assoc, run_app in E.
  destruct (run (ops ++ [Close t]) (construct base f start s)) as [[l1 s1]|] eqn:R; [|discriminate E]. destruct (closed_log base f start s ops t l1 s1 A N R) as (x & F & M & _).
  rewrite run_app in R. destruct (run ops (construct base f start s)) as [[l0 s0]|] eqn:R0; [|discriminate R]. destruct (holds_run base f start s ops l0 s0 A N R0) as [H1 H2 H3 H4 _ _ _ _].
  cbn [run step] in R. unfold close_log in R. injection R as Rl Rs. cbn [run step] in E. unfold close_log in E. injection E as El Es. rewrite <- Rl in Es. cbn [l_dir l_start l_keys l_amends l_streams fold_left] in Es.
  rewrite <- Es, H1, find_in_dir, F. cbn [option_map]. eexists. split; [reflexivity|]. cbn [d_manifest]. rewrite H2, H3, H4. reflexivity.
Qed.
Theorem other_seconds_kept base f start sec a n s ops l' s' :
  broken_down sec f -> 0 <= year f < 10000 -> id_of a n -> a <> sec -> opened_dirs ops = [] -> run ops (construct base f start s) = Some (l', s') -> find (join base n) s' = find (join base n) s.
Proof.
  intros B Y I D O E. apply (others_untouched base f start s ops l' s' _ E). intros [J|J]; [|change (In (join base n) (opened_dirs ops)) in J; rewrite O in J; destruct J].
  assert (F : id_of sec (log_id f)) by (exists f; split; [exact B|]; split; [exact Y|reflexivity]). pose proof (id_of_compare _ _ _ _ F I) as C. rewrite <- (compare_join base), J, compare_refl in C. symmetry in C. apply Z.compare_eq in C. congruence.
Qed.
Lemma chain_same s s' d ds : chain s d ds -> (forall e, In e (map fst ds) -> find e s' = find e s) -> chain s' d ds.
Proof.
  induction 1 as [d x m F M N|d x m a rest F M N C IH]; intros U.
  - apply (chain_last s' d x m); [rewrite (U d (or_introl eq_refl)); exact F|exact M|exact N].
  - apply (chain_more s' d x m a rest); [rewrite (U d (or_introl eq_refl)); exact F|exact M|exact N|]. apply IH. intros e I. apply U. right. exact I.
Qed.
(** The log just closed and the logs it amends. *)
Theorem closed_chain base f start s ops t l' s' :
  Forall adds ops -> NoDup (map logKeyName (keys_of ops)) -> run (ops ++ [Close t]) (construct base f start s) = Some (l', s') ->
  let d := join base (log_id f) in let m := mkMan start t (keys_of ops) (map logKeyName (keys_of ops)) (amended ops) in
  (amended ops = None -> chain s' d [(d, m)]) /\ (forall a rest, amended ops = Some a -> chain s a rest -> ~ In d (map fst rest) -> chain s' d ((d, m) :: rest)).
Proof.
  intros A N E d m. destruct (closed_log base f start s ops t l' s' A N E) as (x & F & M & _). fold d in F. fold m in M. split.
  - intros Am. apply (chain_last s' d x m F M). exact Am.
  - intros a rest Am C Nd. apply (chain_more s' d x m a rest F M Am). apply (chain_same s s' a rest C). intros e I.
    assert (O : opened_dirs (ops ++ [Close t]) = []).
    { unfold opened_dirs. rewrite flat_map_app. rewrite app_nil_r. clear E N Am m M. induction A as [|o l P Q IH]; [reflexivity|]. destruct o; cbn in P; try contradiction; exact IH. }
    apply (others_untouched base f start s (ops ++ [Close t]) l' s' e E). change (~ (join base (log_id f) = e \/ In e (opened_dirs (ops ++ [Close t])))). rewrite O. intros [J|[]].
    apply Nd. unfold d. rewrite J. exact I.
Qed.
