(** Proofs about the names of streams and logs. *)
From Coq Require Import Ascii String ZArith NArith List Bool Lia Decimal DecimalString DecimalZ DecimalFacts.
From Verif Require Import LogNameModel LogNameSpec.
Import ListNotations.
Local Open Scope string_scope.
Local Open Scope Z_scope.

(** ** Decimal numbers *)
Lemma dec_back z : NilZero.int_of_string (dec z) = Some (Z.to_int z).
Proof.
  unfold dec. apply NilZero.isi; intros E; pose proof (of_to z) as H; rewrite E in H; cbn in H; rewrite <- H in E; discriminate E.
Qed.
Lemma dec_inj a b : dec a = dec b -> a = b.
Proof. intros E. apply to_int_inj. pose proof (dec_back a) as A. rewrite E, dec_back in A. congruence. Qed.

Local Open Scope N_scope.
Lemma of_uint_acc_lt d : forall acc, N.pos (Pos.of_uint_acc d acc) < (N.pos acc + 1) * 10 ^ N.of_nat (nb_digits d).
Proof.
  induction d as [|d IH|d IH|d IH|d IH|d IH|d IH|d IH|d IH|d IH|d IH]; intros acc; cbn [Pos.of_uint_acc nb_digits];
    [rewrite N.pow_0_r; lia|..]; rewrite Nat2N.inj_succ, N.pow_succ_r';
    (eapply N.lt_le_trans; [apply IH|]); rewrite N.mul_assoc; apply N.mul_le_mono_r; lia.
Qed.
Lemma of_uint_lt d : Pos.of_uint d < 10 ^ N.of_nat (nb_digits d).
Proof.
  induction d as [|d IH|d IH|d IH|d IH|d IH|d IH|d IH|d IH|d IH|d IH]; cbn [Pos.of_uint nb_digits];
    [rewrite N.pow_0_r; lia|..]; rewrite Nat2N.inj_succ, N.pow_succ_r'; [nia|..];
    (eapply N.lt_le_trans; [apply of_uint_acc_lt|]); apply N.mul_le_mono_r; lia.
Qed.
Local Open Scope Z_scope.
Lemma string_of_uint_length d : String.length (NilEmpty.string_of_uint d) = nb_digits d.
Proof. induction d; cbn; congruence. Qed.
Lemma uint_small n u : (String.length (NilZero.string_of_uint u) <= n)%nat -> 0 <= Z.of_uint u < 10 ^ Z.of_nat n.
Proof.
  intros L. unfold Z.of_uint. assert (B : (Pos.of_uint u < 10 ^ N.of_nat n)%N).
  { destruct (uint_eq_dec u Nil) as [->|Nn].
    - cbn [Pos.of_uint]. assert (10 ^ N.of_nat n <> 0)%N by (apply N.pow_nonzero; lia). lia.
    - assert (L' : (nb_digits u <= n)%nat) by (rewrite <- string_of_uint_length; destruct u; [congruence|exact L..]).
      eapply N.lt_le_trans; [apply of_uint_lt|]. apply N.pow_le_mono_r; lia. }
  apply N2Z.inj_lt in B. rewrite N2Z.inj_pow, nat_N_Z in B. lia.
Qed.
Lemma dec_length k : (String.length (dec k) < 4)%nat -> -99 <= k <= 999.
Proof.
  intros L. pose proof (of_to k) as E. unfold dec in L. destruct (Z.to_int k) as [u|u]; cbn [NilZero.string_of_int] in L; unfold Z.of_int in E.
  - pose proof (uint_small 3 u ltac:(lia)) as B. change (10 ^ Z.of_nat 3) with 1000 in B. lia.
  - cbn [String.length] in L. pose proof (uint_small 2 u ltac:(lia)) as B. change (10 ^ Z.of_nat 2) with 100 in B. lia.
Qed.

(** Checking all integers of an interval. *)
Fixpoint check_from (n : nat) (a : Z) (f : Z -> bool) : bool := match n with O => true | S m => f a && check_from m (a + 1) f end.
Lemma check_from_ok n : forall a f, check_from n a f = true -> forall z, a <= z < a + Z.of_nat n -> f z = true.
Proof.
  induction n as [|n IH]; intros a f E z B; [lia|]. cbn [check_from] in E. apply andb_true_iff in E as (E1 & E2).
  destruct (Z.eq_dec z a) as [->|N]; [exact E1|]. apply (IH (a + 1) f E2). lia.
Qed.

(** ** Names of keys *)
Definition plain_key (k : Z) : bool := negb ((0 <=? k) && (k <? 12)).
Definition default_name (k : Z) : string := centred 4 (dec k).
Lemma name_default k : plain_key k = true -> logKeyName k = "LOG_KEY_" ++ default_name k.
Proof. unfold plain_key, logKeyName. destruct ((0 <=? k) && (k <? 12)); [discriminate|reflexivity]. Qed.
Lemma name_enum k : plain_key k = false -> logKeyName k = nth (Z.to_nat k) key_names "" /\ 0 <= k < 12.
Proof.
  unfold plain_key, logKeyName. destruct ((0 <=? k) && (k <? 12)) eqn:E; [|discriminate]. intros _. split; [reflexivity|]. apply andb_true_iff in E. lia.
Qed.
Lemma default_long k : (4 <= String.length (dec k))%nat -> default_name k = dec k.
Proof.
  intros L. unfold default_name, centred. replace (4 - String.length (dec k))%nat with 0%nat by lia. cbn [rep Nat.div Nat.divmod fst Nat.sub append].
  induction (dec k) as [|c s IH]; [reflexivity|]. cbn [append]. f_equal. clear. induction s as [|c s IH]; [reflexivity|]. cbn [append]. f_equal. exact IH.
Qed.
(** Which key a short default name belongs to: its characters 1 and 2 if it starts
    with 0, otherwise the first three. *)
Definition key_of (s : string) : option Z :=
  let t := if String.prefix "0" s then substring 1 2 s else substring 0 3 s in
  option_map Z.of_int (NilZero.int_of_string t).
(** The other key with the same name. *)
Lemma short_checked : forall k, -99 <= k <= 999 -> plain_key k = true ->
  key_of (default_name k) = Some k /\
  match option_map Z.of_int (NilZero.int_of_string (default_name k)) with
  | Some b => ((100 <=? k) || (k <=? -10) = true /\ b = 10 * k) \/ (4 <=? String.length (dec b) = false)%nat \/ String.eqb (dec b) (default_name k) = false
  | None => True
  end.
Proof.
  intros k B P.
  assert (C : check_from 1099 (-99) (fun k => negb (plain_key k) || match key_of (default_name k) with Some x => x =? k | None => false end &&
    match option_map Z.of_int (NilZero.int_of_string (default_name k)) with
    | Some b => ((100 <=? k) || (k <=? -10)) && (b =? 10 * k) || negb (4 <=? String.length (dec b))%nat || negb (String.eqb (dec b) (default_name k))
    | None => true end) = true) by (vm_compute; reflexivity).
  pose proof (check_from_ok _ _ _ C k ltac:(lia)) as Q. cbv beta in Q. rewrite P in Q. cbn [negb orb] in Q. apply andb_true_iff in Q as (Q1 & Q2). split.
  - destruct (key_of (default_name k)); [|discriminate]. apply Z.eqb_eq in Q1. congruence.
  - destruct (option_map Z.of_int (NilZero.int_of_string (default_name k))) as [b|]; [|exact I].
    apply orb_true_iff in Q2 as [Q2|Q2]; [apply orb_true_iff in Q2 as [Q2|Q2]|].
    + left. apply andb_true_iff in Q2 as (Q2 & Q3). split; [exact Q2|lia].
    + right. left. apply negb_true_iff in Q2. exact Q2.
    + right. right. apply negb_true_iff in Q2. exact Q2.
Qed.
Lemma short_long a b : plain_key a = true -> (String.length (dec a) < 4)%nat -> (4 <= String.length (dec b))%nat -> default_name a = default_name b -> partner a b.
Proof.
  intros Pa La Lb E. rewrite (default_long b Lb) in E. pose proof (dec_length a La) as Ba. destruct (short_checked a Ba Pa) as (_ & C). rewrite E, dec_back in C. cbn [option_map] in C. rewrite of_to in C.
  destruct C as [(C1 & C2)|[C|C]].
  - split; [exact C2|]. apply orb_true_iff in C1. lia.
  - apply Nat.leb_gt in C. lia.
  - rewrite String.eqb_refl in C. discriminate.
Qed.
Lemma append_inj p a b : (p ++ a = p ++ b)%string -> a = b.
Proof. induction p as [|c p IH]; cbn [append]; intros E; [exact E|]. apply IH. congruence. Qed.
Lemma default_inj a b : plain_key a = true -> plain_key b = true -> default_name a = default_name b -> a = b \/ partner a b \/ partner b a.
Proof.
  intros Pa Pb E. destruct (Nat.lt_ge_cases (String.length (dec a)) 4) as [La|La]; destruct (Nat.lt_ge_cases (String.length (dec b)) 4) as [Lb|Lb].
  - left. destruct (short_checked a (dec_length a La) Pa) as (A & _). destruct (short_checked b (dec_length b Lb) Pb) as (B & _). rewrite E, B in A. congruence.
  - right. left. apply short_long; assumption.
  - right. right. apply short_long; [assumption..|symmetry; exact E].
  - left. rewrite (default_long a La), (default_long b Lb) in E. apply dec_inj. exact E.
Qed.
Lemma partner_same a b : partner a b -> logKeyName a = logKeyName b.
Proof.
  intros (-> & B).
  assert (C : check_from 1099 (-99) (fun k => (((k <? 100) && (-10 <? k))) || String.eqb (logKeyName k) (logKeyName (10 * k))) = true) by (vm_compute; reflexivity).
  pose proof (check_from_ok _ _ _ C a ltac:(lia)) as Q. cbv beta in Q. apply orb_true_iff in Q as [Q|Q]; [apply andb_true_iff in Q; lia|]. apply String.eqb_eq. exact Q.
Qed.
Lemma enum_not_default i s : (i < 12)%nat -> nth i key_names "" <> "LOG_KEY_" ++ s.
Proof. intros L. do 12 (destruct i as [|i]; [cbn; discriminate|]). lia. Qed.
Lemma enum_inj i j : (i < 12)%nat -> (j < 12)%nat -> nth i key_names "" = nth j key_names "" -> i = j.
Proof.
  intros Li Lj E. assert (ND : NoDup key_names) by (repeat constructor; cbn; intuition discriminate).
  rewrite (NoDup_nth key_names "") in ND. apply ND; [cbn; lia|cbn; lia|exact E].
Qed.
Theorem names_iff a b : logKeyName a = logKeyName b <-> a = b \/ partner a b \/ partner b a.
Proof.
  split.
  - intros E. destruct (plain_key a) eqn:Pa; destruct (plain_key b) eqn:Pb.
    + rewrite (name_default a Pa), (name_default b Pb) in E. apply append_inj in E. apply default_inj; assumption.
    + exfalso. destruct (name_enum b Pb) as (Eb & B). rewrite (name_default a Pa), Eb in E. symmetry in E. revert E. apply enum_not_default. lia.
    + exfalso. destruct (name_enum a Pa) as (Ea & A). rewrite (name_default b Pb), Ea in E. revert E. apply enum_not_default. lia.
    + left. destruct (name_enum a Pa) as (Ea & A). destruct (name_enum b Pb) as (Eb & B). rewrite Ea, Eb in E. apply enum_inj in E; lia.
  - intros [->|[P|P]]; [reflexivity|apply partner_same; exact P|symmetry; apply partner_same; exact P].
Qed.

(** ** The calendar *)
Lemma leap_year_days y : before_year (y + 1) = before_year y + 365 + (if leap y then 1 else 0).
Proof.
  unfold before_year, leap.
  assert (A : (y + 1 - 1969) / 4 = (y - 1969) / 4 + (if y mod 4 =? 0 then 1 else 0)) by (destruct (Z.eqb_spec (y mod 4) 0); Z.div_mod_to_equations; lia).
  assert (B : (y + 1 - 1901) / 100 = (y - 1901) / 100 + (if y mod 100 =? 0 then 1 else 0)) by (destruct (Z.eqb_spec (y mod 100) 0); Z.div_mod_to_equations; lia).
  assert (C : (y + 1 - 1601) / 400 = (y - 1601) / 400 + (if y mod 400 =? 0 then 1 else 0)) by (destruct (Z.eqb_spec (y mod 400) 0); Z.div_mod_to_equations; lia).
  rewrite A, B, C. clear A B C.
  assert (D : y mod 400 = 0 -> y mod 100 = 0) by (Z.div_mod_to_equations; lia). assert (E : y mod 100 = 0 -> y mod 4 = 0) by (Z.div_mod_to_equations; lia).
  destruct (Z.eqb_spec (y mod 4) 0), (Z.eqb_spec (y mod 100) 0), (Z.eqb_spec (y mod 400) 0); cbn [negb orb andb]; try (exfalso; tauto); lia.
Qed.
Lemma before_year_mono y z : y < z -> before_year y + 365 + (if leap y then 1 else 0) <= before_year z.
Proof.
  intros L. rewrite <- leap_year_days. remember (Z.to_nat (z - (y + 1))) as n eqn:En. assert (Ez : z = y + 1 + Z.of_nat n) by lia. rewrite Ez. clear.
  induction n as [|n IH]; [replace (y + 1 + Z.of_nat 0) with (y + 1) by lia; lia|].
  replace (y + 1 + Z.of_nat (S n)) with (y + 1 + Z.of_nat n + 1) by lia. rewrite (leap_year_days (y + 1 + Z.of_nat n)). destruct (leap (y + 1 + Z.of_nat n)); lia.
Qed.
Lemma twelve (P : Z -> Prop) : P 1 -> P 2 -> P 3 -> P 4 -> P 5 -> P 6 -> P 7 -> P 8 -> P 9 -> P 10 -> P 11 -> P 12 -> forall m, 1 <= m <= 12 -> P m.
Proof.
  intros. assert (B : m = 1 \/ m = 2 \/ m = 3 \/ m = 4 \/ m = 5 \/ m = 6 \/ m = 7 \/ m = 8 \/ m = 9 \/ m = 10 \/ m = 11 \/ m = 12) by lia.
  repeat (destruct B as [B|B]; [subst; assumption|]). subst. assumption.
Qed.
Lemma before_month_next y m : 1 <= m < 12 -> before_month y (m + 1) = before_month y m + month_length y m.
Proof.
  intros B. assert (B2 : 1 <= m <= 12) by lia. assert (B3 : m < 12) by lia. clear B. revert m B2 B3.
  apply (twelve (fun m => m < 12 -> before_month y (m + 1) = before_month y m + month_length y m)); intros B; [..|exfalso; lia]; clear B; unfold before_month, month_length; destruct (leap y); reflexivity.
Qed.
Lemma before_month_last y : forall m, 1 <= m <= 12 -> 0 <= before_month y m /\ before_month y m + month_length y m <= 365 + (if leap y then 1 else 0).
Proof.
  apply (twelve (fun m => 0 <= before_month y m /\ before_month y m + month_length y m <= 365 + (if leap y then 1 else 0)));
    (split; unfold before_month, month_length; destruct (leap y); vm_compute; discriminate).
Qed.
Lemma year_end y : before_month y 12 + month_length y 12 = 365 + (if leap y then 1 else 0).
Proof. unfold before_month, month_length. destruct (leap y); reflexivity. Qed.
Lemma year_start y : before_month y 1 = 0.
Proof. reflexivity. Qed.
Lemma month_length_bounds y m : 28 <= month_length y m <= 31.
Proof. unfold month_length. destruct (m =? 2), (leap y), (m =? 4), (m =? 6), (m =? 9), (m =? 11); cbn [orb]; lia. Qed.
Lemma before_month_mono y m n : 1 <= m < n -> n <= 12 -> before_month y m + month_length y m <= before_month y n.
Proof.
  intros A B. rewrite <- before_month_next by lia. remember (Z.to_nat (n - (m + 1))) as k eqn:Ek. assert (En : n = m + 1 + Z.of_nat k) by lia. rewrite En in *. clear Ek En n.
  induction k as [|k IH]; [replace (m + 1 + Z.of_nat 0) with (m + 1) by lia; lia|].
  replace (m + 1 + Z.of_nat (S k)) with (m + 1 + Z.of_nat k + 1) in * by lia.
  specialize (IH ltac:(lia) ltac:(lia)). pose proof (month_length_bounds y (m + 1 + Z.of_nat k)). rewrite (before_month_next y (m + 1 + Z.of_nat k)) by lia. lia.
Qed.
(** Fields compared from the year down. *)
Definition lex (a b : comparison) : comparison := match a with Eq => b | c => c end.
Definition tm_compare (f g : tm) : comparison :=
  lex (year f ?= year g) (lex (month f ?= month g) (lex (day f ?= day g) (lex (hour f ?= hour g) (lex (minute f ?= minute g) (second f ?= second g))))).
Lemma tm_lt f g : valid_tm f -> valid_tm g -> tm_compare f g = Lt -> posix_seconds f < posix_seconds g.
Proof.
  intros (A1 & A2 & A3 & A4 & A5) (B1 & B2 & B3 & B4 & B5) C. unfold tm_compare in C. unfold posix_seconds.
  destruct (Z.compare_spec (year f) (year g)) as [Ey|Ly|Ly]; cbn [lex] in C; [|clear C|discriminate].
  2: { pose proof (before_year_mono _ _ Ly) as Q. pose proof (before_month_last (year f) (month f) A1) as (_ & R). pose proof (before_month_last (year g) (month g) B1) as (S & _). lia. }
  rewrite <- Ey in *. destruct (Z.compare_spec (month f) (month g)) as [Em|Lm|Lm]; cbn [lex] in C; [|clear C|discriminate].
  2: { pose proof (before_month_mono (year f) (month f) (month g) ltac:(lia) ltac:(lia)). lia. }
  rewrite <- Em in *. destruct (Z.compare_spec (day f) (day g)) as [Ed|Ld|Ld]; cbn [lex] in C; [|lia|discriminate].
  destruct (Z.compare_spec (hour f) (hour g)) as [Eh|Lh|Lh]; cbn [lex] in C; [|lia|discriminate].
  destruct (Z.compare_spec (minute f) (minute g)) as [En|Ln|Ln]; cbn [lex] in C; [|lia|discriminate].
  destruct (Z.compare_spec (second f) (second g)); [discriminate|lia|discriminate].
Qed.
Lemma lex_opp a b : lex (CompOpp a) (CompOpp b) = CompOpp (lex a b).
Proof. destruct a; reflexivity. Qed.
Lemma tm_compare_opp f g : tm_compare g f = CompOpp (tm_compare f g).
Proof. unfold tm_compare. rewrite <- !lex_opp, <- !Z.compare_antisym. reflexivity. Qed.
Lemma tm_compare_eq f g : tm_compare f g = Eq -> f = g.
Proof.
  destruct f as [y m d h n s], g as [y' m' d' h' n' s']. unfold tm_compare, lex. cbn [year month day hour minute second]. intros C.
  repeat match type of C with context [Z.compare ?a ?b] => destruct (Z.compare_spec a b); try discriminate C end. congruence.
Qed.
Lemma posix_compare f g : valid_tm f -> valid_tm g -> (posix_seconds f ?= posix_seconds g) = tm_compare f g.
Proof.
  intros V W. destruct (tm_compare f g) eqn:C.
  - apply tm_compare_eq in C. subst. apply Z.compare_refl.
  - apply tm_lt; assumption.
  - apply Z.compare_gt_iff. apply tm_lt; [assumption..|]. rewrite tm_compare_opp, C. reflexivity.
Qed.

(** Every second has its fields. *)
Definition same_clock (f : tm) (y m d : Z) : tm := mkTm y m d (hour f) (minute f) (second f).
Lemma next_day f : valid_tm f -> exists g, valid_tm g /\ posix_seconds g = posix_seconds f + 86400.
Proof.
  intros (A1 & A2 & A3). unfold posix_seconds. destruct (Z.eq_dec (day f) (month_length (year f) (month f))) as [E|E].
  - destruct (Z.eq_dec (month f) 12) as [M|M].
    + exists (same_clock f (year f + 1) 1 1). split.
      * split; [cbn; lia|]. split; [cbn; lia|exact A3].
      * cbn [second minute hour year month day same_clock]. rewrite leap_year_days, E, M, year_start. pose proof (year_end (year f)). lia.
    + exists (same_clock f (year f) (month f + 1) 1). split.
      * split; [cbn; lia|]. split; [|exact A3]. cbn [day year month same_clock]. split; [lia|]. pose proof (month_length_bounds (year f) (month f + 1)). lia.
      * cbn [second minute hour year month day same_clock]. rewrite before_month_next by lia. lia.
  - exists (same_clock f (year f) (month f) (day f + 1)). split.
    + split; [exact A1|]. split; [cbn [day year month same_clock]; lia|exact A3].
    + cbn [second minute hour year month day same_clock]. lia.
Qed.
Lemma prev_day f : valid_tm f -> exists g, valid_tm g /\ posix_seconds g = posix_seconds f - 86400.
Proof.
  intros (A1 & A2 & A3). unfold posix_seconds. destruct (Z.eq_dec (day f) 1) as [E|E].
  - destruct (Z.eq_dec (month f) 1) as [M|M].
    + exists (same_clock f (year f - 1) 12 31). split.
      * split; [cbn; lia|]. split; [cbn; lia|exact A3].
      * cbn [second minute hour year month day same_clock]. pose proof (leap_year_days (year f - 1)) as L. replace (year f - 1 + 1) with (year f) in L by lia. rewrite L, E, M, year_start. pose proof (year_end (year f - 1)).
        change (month_length (year f - 1) 12) with 31 in *. lia.
    + exists (same_clock f (year f) (month f - 1) (month_length (year f) (month f - 1))). split.
      * split; [cbn; lia|]. split; [|exact A3]. cbn [day year month same_clock]. split; [|lia]. pose proof (month_length_bounds (year f) (month f - 1)). lia.
      * cbn [second minute hour year month day same_clock]. pose proof (before_month_next (year f) (month f - 1) ltac:(lia)) as L. replace (month f - 1 + 1) with (month f) in L by lia. lia.
  - exists (same_clock f (year f) (month f) (day f - 1)). split.
    + split; [exact A1|]. split; [cbn [day year month same_clock]; lia|exact A3].
    + cbn [second minute hour year month day same_clock]. lia.
Qed.
Lemma days_exist h : 0 <= h < 86400 -> forall n, exists f, valid_tm f /\ posix_seconds f = n * 86400 + h.
Proof.
  intros B n. induction n as [|n (f & V & E)|n (f & V & E)] using Z.peano_ind.
  - exists (mkTm 1970 1 1 (h / 3600) (h mod 3600 / 60) (h mod 60)). split.
    + unfold valid_tm. cbn [month day year hour minute second]. unfold month_length. cbn. Z.div_mod_to_equations. lia.
    + unfold posix_seconds. cbn [month day year hour minute second]. change (before_year 1970) with 0. change (before_month 1970 1) with 0. Z.div_mod_to_equations. lia.
  - destruct (next_day f V) as (g & W & G). exists g. split; [exact W|]. lia.
  - destruct (prev_day f V) as (g & W & G). exists g. split; [exact W|]. lia.
Qed.
Lemma broken_down_exists sec : exists f, broken_down sec f.
Proof. destruct (days_exist (sec mod 86400) ltac:(apply Z.mod_pos_bound; lia) (sec / 86400)) as (f & V & E). exists f. split; [exact V|]. rewrite E. pose proof (Z.div_mod sec 86400). lia. Qed.

(** ** Comparing names *)
Lemma compare_app a : forall a' b b', String.length a = String.length a' -> String.compare (a ++ b) (a' ++ b') = lex (String.compare a a') (String.compare b b').
Proof.
  induction a as [|c a IH]; intros [|c' a'] b b' L; try discriminate L; [reflexivity|]. cbn [append String.compare]. injection L as L.
  destruct (Ascii.compare c c'); [apply IH; exact L|reflexivity|reflexivity].
Qed.
Lemma two_digits a : 0 <= a < 100 -> String.length (right 2 (dec a)) = 2%nat.
Proof.
  intros B. assert (C : check_from 100 0 (fun a => String.length (right 2 (dec a)) =? 2)%nat = true) by (vm_compute; reflexivity).
  apply Nat.eqb_eq. apply (check_from_ok _ _ _ C a). lia.
Qed.
Definition cmp_eqb (a b : comparison) : bool := match a, b with Eq, Eq | Lt, Lt | Gt, Gt => true | _, _ => false end.
Lemma cmp_eqb_ok a b : cmp_eqb a b = true -> a = b.
Proof. destruct a, b; try discriminate; reflexivity. Qed.
Lemma compare_two a b : 0 <= a < 100 -> 0 <= b < 100 -> String.compare (right 2 (dec a)) (right 2 (dec b)) = (a ?= b).
Proof.
  intros A B. assert (C : check_from 100 0 (fun a => let s := right 2 (dec a) in check_from 100 0 (fun b => cmp_eqb (String.compare s (right 2 (dec b))) (a ?= b))) = true) by (vm_compute; reflexivity).
  pose proof (check_from_ok _ _ _ C a ltac:(lia)) as C1. cbv beta zeta in C1. apply cmp_eqb_ok. apply (check_from_ok _ _ _ C1 b). lia.
Qed.
Lemma four_digits y : 0 <= y < 10000 -> right 4 (dec y) = (right 2 (dec (y / 100)) ++ right 2 (dec (y mod 100)))%string.
Proof.
  intros B. assert (B1 : 0 <= y / 100 < 0 + 100) by (Z.div_mod_to_equations; lia). assert (B2 : 0 <= y mod 100 < 0 + 100) by (Z.div_mod_to_equations; lia).
  assert (C : check_from 100 0 (fun a => check_from 100 0 (fun b => String.eqb (right 4 (dec (100 * a + b))) (right 2 (dec a) ++ right 2 (dec b)))) = true) by (vm_compute; reflexivity).
  pose proof (check_from_ok _ _ _ C (y / 100) B1) as C1. cbv beta in C1. pose proof (check_from_ok _ _ _ C1 (y mod 100) B2) as C2. cbv beta in C2.
  apply String.eqb_eq in C2. rewrite <- C2. clear. f_equal. f_equal. pose proof (Z.div_mod y 100). lia.
Qed.
Lemma compare_four a b : 0 <= a < 10000 -> 0 <= b < 10000 -> String.compare (right 4 (dec a)) (right 4 (dec b)) = (a ?= b).
Proof.
  intros A B. rewrite (four_digits a A), (four_digits b B).
  assert (A1 : 0 <= a / 100 < 100 /\ 0 <= a mod 100 < 100) by (Z.div_mod_to_equations; lia). assert (B1 : 0 <= b / 100 < 100 /\ 0 <= b mod 100 < 100) by (Z.div_mod_to_equations; lia).
  destruct A1 as (A1 & A2). destruct B1 as (B1 & B2). rewrite compare_app by (rewrite !two_digits by assumption; reflexivity). rewrite !compare_two by assumption.
  pose proof (Z.div_mod a 100). pose proof (Z.div_mod b 100). destruct (Z.compare_spec (a / 100) (b / 100)); cbn [lex]; symmetry.
  - destruct (Z.compare_spec (a mod 100) (b mod 100)); [apply Z.compare_eq_iff|apply Z.compare_lt_iff|apply Z.compare_gt_iff]; lia.
  - apply Z.compare_lt_iff. lia.
  - apply Z.compare_gt_iff. lia.
Qed.
Lemma four_length y : 0 <= y < 10000 -> String.length (right 4 (dec y)) = 4%nat.
Proof.
  intros B. rewrite (four_digits y B).
  assert (L : forall a b, String.length (a ++ b) = (String.length a + String.length b)%nat) by (clear; induction a as [|c a IH]; intros b; [reflexivity|cbn [append String.length]; rewrite IH; reflexivity]).
  rewrite L, !two_digits by (Z.div_mod_to_equations; lia). reflexivity.
Qed.
Lemma valid_ranges f : valid_tm f -> 0 <= month f < 100 /\ 0 <= day f < 100 /\ 0 <= hour f < 100 /\ 0 <= minute f < 100 /\ 0 <= second f < 100.
Proof.
  intros (A1 & A2 & A3 & A4 & A5). pose proof (month_length_bounds (year f) (month f)). lia.
Qed.
Theorem id_compare f g : valid_tm f -> valid_tm g -> 0 <= year f < 10000 -> 0 <= year g < 10000 ->
  String.compare (log_id f) (log_id g) = (posix_seconds f ?= posix_seconds g).
Proof.
  intros V W Yf Yg. rewrite (posix_compare f g V W). destruct (valid_ranges f V) as (F1 & F2 & F3 & F4 & F5). destruct (valid_ranges g W) as (G1 & G2 & G3 & G4 & G5).
  unfold log_id. rewrite compare_app by (rewrite !four_length by assumption; reflexivity). rewrite compare_four by assumption.
  do 2 (rewrite compare_app by (rewrite !two_digits by assumption; reflexivity)). rewrite !compare_two by assumption.
  rewrite compare_app by reflexivity. change (String.compare "_" "_") with Eq. cbn [lex].
  do 2 (rewrite compare_app by (rewrite !two_digits by assumption; reflexivity)). rewrite !compare_two by assumption. reflexivity.
Qed.

(** ** Choosing a log *)
Fixpoint all_chars (p : ascii -> bool) (s : string) : bool := match s with EmptyString => true | String c r => p c && all_chars p r end.
Definition id_char (c : ascii) : bool := digit c || Ascii.eqb c "_".
Lemma digits_chars n : forall s r, digits n s = Some r -> all_chars id_char r = true -> all_chars id_char s = true.
Proof.
  induction n as [|n IH]; intros s r D A; [cbn in D; congruence|]. destruct s as [|c s]; [discriminate D|]. cbn [digits] in D. destruct (digit c) eqn:Dc; [|discriminate D].
  cbn [all_chars]. unfold id_char at 1. rewrite Dc. cbn [orb andb]. apply (IH s r D A).
Qed.
Lemma isLogId_chars s : isLogId s = true -> all_chars id_char s = true.
Proof.
  unfold isLogId. intros I. destruct (digits 8 s) as [[|c r]|] eqn:D; try discriminate I. destruct (Ascii.eqb c "_") eqn:C; [|discriminate I]. destruct (digits 6 r) as [[|]|] eqn:D6; try discriminate I.
  apply (digits_chars 8 s _ D). cbn [all_chars]. unfold id_char at 1. rewrite C, orb_true_r. cbn [andb]. apply (digits_chars 6 r _ D6). reflexivity.
Qed.
Lemma no_char c s : id_char c = false -> all_chars id_char s = true -> split_last c s = None.
Proof.
  intros N. induction s as [|a s IH]; intros A; [reflexivity|]. cbn [all_chars] in A. apply andb_true_iff in A as (A1 & A2). cbn [split_last]. rewrite (IH A2).
  destruct (Ascii.eqb_spec a c) as [E|_]; [congruence|reflexivity].
Qed.
Lemma split_app c x n : split_last c n = None -> split_last c (x ++ String c n) = Some (x, n).
Proof. intros N. induction x as [|a x IH]; cbn [append split_last]; [rewrite N, Ascii.eqb_refl; reflexivity|]. rewrite IH. reflexivity. Qed.
Lemma append_assoc' a b c : ((a ++ b) ++ c = a ++ b ++ c)%string.
Proof. induction a as [|x a IH]; [reflexivity|]. cbn [append]. rewrite IH. reflexivity. Qed.
Lemma split_some c s : forall x y, split_last c s = Some (x, y) -> s = (x ++ String c y)%string.
Proof.
  induction s as [|a s IH]; intros x y E; [discriminate E|]. cbn [split_last] in E. destruct (split_last c s) as [[x' y']|].
  - injection E as <- <-. cbn [append]. rewrite <- (IH _ _ eq_refl). reflexivity.
  - destruct (Ascii.eqb_spec a c) as [->|_]; [|discriminate E]. injection E as <- <-. reflexivity.
Qed.
(** [join d n] is a fixed text ending in a slash, then [n]. *)
Lemma join_is d : exists x, forall n, join d n = (x ++ String "/" n)%string.
Proof.
  unfold join. destruct (split_last "/" d) as [[x [|c y]]|] eqn:E.
  - exists x. intros n. rewrite (split_some _ _ _ _ E), append_assoc'. reflexivity.
  - exists d. reflexivity.
  - exists d. reflexivity.
Qed.
Lemma join_plain d n : plain_dir d -> join d n = (d ++ "/" ++ n)%string.
Proof. intros P. unfold join. destruct (split_last "/" d) as [[x [|c y]]|] eqn:E; try reflexivity. destruct (P x (split_some _ _ _ _ E)). Qed.
Lemma plain_ok d : (forall x, split_last "/" d <> Some (x, ""%string)) -> plain_dir d.
Proof. intros N x ->. apply (N x). apply (split_app "/" x ""). reflexivity. Qed.
Lemma id_not_empty n : isLogId n = true -> n <> ""%string.
Proof. intros I ->. discriminate I. Qed.
Lemma stem_join d n : isLogId n = true -> stem (join d n) = n.
Proof.
  intros I. pose proof (isLogId_chars n I) as A. destruct (join_is d) as (x & J). rewrite J. unfold stem, filename.
  rewrite (split_app "/" x n (no_char "/" n eq_refl A)). destruct n as [|c n]; [discriminate I|]. 
  rewrite (no_char "." _ eq_refl A). destruct (String.eqb_spec (String c n) "."), (String.eqb_spec (String c n) ".."); reflexivity.
Qed.
Lemma compare_refl s : String.compare s s = Eq.
Proof.
  induction s as [|c s IH]; [reflexivity|]. cbn [String.compare]. replace (Ascii.compare c c) with Eq; [exact IH|]. unfold Ascii.compare. symmetry. apply N.compare_refl.
Qed.
Lemma compare_same x : forall a b, String.compare (x ++ a) (x ++ b) = String.compare a b.
Proof. intros a b. rewrite compare_app by reflexivity. rewrite compare_refl. reflexivity. Qed.
Lemma compare_join d a b : String.compare (join d a) (join d b) = String.compare a b.
Proof. destruct (join_is d) as (x & J). rewrite !J. replace (x ++ String "/" a)%string with ((x ++ "/") ++ a)%string by apply append_assoc'. replace (x ++ String "/" b)%string with ((x ++ "/") ++ b)%string by apply append_assoc'. apply compare_same. Qed.
Lemma greatest_join d l : greatest (map (join d) l) = option_map (join d) (greatest l).
Proof.
  induction l as [|x l IH]; [reflexivity|]. cbn [map greatest]. rewrite IH. destruct (greatest l) as [y|]; [|reflexivity]. cbn [option_map]. unfold String.ltb. rewrite compare_join. destruct (String.compare x y); reflexivity.
Qed.
(** If names compare as numbers, [greatest] takes the greatest number. *)
Lemma greatest_newest (R : Z -> string -> Prop) (l : list string) :
  (forall a b s t, R a s -> R b t -> String.compare s t = (a ?= b)) -> (forall n, In n l -> exists a, R a n) -> l <> [] ->
  exists a n, greatest l = Some n /\ In n l /\ R a n /\ forall b m, In m l -> R b m -> b <= a.
Proof.
  intros O. induction l as [|x l IH]; intros A N; [congruence|]. destruct (A x (or_introl eq_refl)) as (a & Ra). cbn [greatest].
  destruct l as [|y l].
  - exists a, x. cbn [greatest]. split; [reflexivity|]. split; [left; reflexivity|]. split; [exact Ra|]. intros b m [->|[]] Rb. pose proof (O _ _ _ _ Ra Rb) as Q.
    rewrite compare_refl in Q. symmetry in Q. apply Z.compare_eq in Q. lia.
  - destruct (IH (fun n I => A n (or_intror I)) ltac:(discriminate)) as (c & n & G & I & Rc & M). rewrite G. clear IH.
    assert (Qa : forall b m, x = m -> R b m -> b = a).
    { intros b m -> Rb. pose proof (O _ _ _ _ Ra Rb) as Q. rewrite compare_refl in Q. symmetry in Q. apply Z.compare_eq in Q. lia. }
    unfold String.ltb. rewrite (O _ _ _ _ Ra Rc). destruct (Z.compare_spec a c) as [E|E|E].
    + exists a, x. split; [reflexivity|]. split; [left; reflexivity|]. split; [exact Ra|]. intros b m [Em|Im] Rb; [rewrite (Qa b m Em Rb); lia|]. specialize (M b m Im Rb). lia.
    + exists c, n. split; [reflexivity|]. split; [right; exact I|]. split; [exact Rc|]. intros b m [Em|Im] Rb; [rewrite (Qa b m Em Rb); lia|]. apply (M b m Im Rb).
    + exists a, x. split; [reflexivity|]. split; [left; reflexivity|]. split; [exact Ra|]. intros b m [Em|Im] Rb; [rewrite (Qa b m Em Rb); lia|]. specialize (M b m Im Rb). lia.
Qed.
Lemma id_of_compare a b s t : id_of a s -> id_of b t -> String.compare s t = (a ?= b).
Proof. intros (f & (V & <-) & Y & ->) (g & (W & <-) & Y2 & ->). apply id_compare; assumption. Qed.

Lemma digits_two a : 0 <= a < 100 -> forall n r, digits (2 + n) (right 2 (dec a) ++ r) = digits n r.
Proof.
  intros B n r. assert (B1 : 0 <= a < 0 + 100) by lia.
  assert (C : check_from 100 0 (fun a => match right 2 (dec a) with String x (String y EmptyString) => digit x && digit y | _ => false end) = true) by (vm_compute; reflexivity).
  pose proof (check_from_ok _ _ _ C a B1) as C1. cbv beta in C1. destruct (right 2 (dec a)) as [|x [|y [|]]]; try discriminate C1. apply andb_true_iff in C1 as (X & Y).
  cbn [append digits Nat.add]. rewrite X, Y. reflexivity.
Qed.
Lemma log_id_digits f : valid_tm f -> 0 <= year f < 10000 -> exists r, digits 8 (log_id f) = Some (String "_" r) /\ digits 6 r = Some ""%string.
Proof.
  intros V Y. destruct (valid_ranges f V) as (F1 & F2 & F3 & F4 & F5). assert (Y1 : 0 <= year f / 100 < 100 /\ 0 <= year f mod 100 < 100) by (Z.div_mod_to_equations; lia). destruct Y1 as (Y1 & Y2).
  unfold log_id. rewrite (four_digits _ Y), append_assoc'. eexists. split; [change 8%nat with (2 + (2 + (2 + (2 + 0))))%nat; rewrite !digits_two by assumption; cbn [digits append]; reflexivity|].
  change 6%nat with (2 + (2 + (2 + 0)))%nat. rewrite !digits_two by assumption. 
  replace (right 2 (dec (second f))) with (right 2 (dec (second f)) ++ "")%string by (clear; induction (right 2 (dec (second f))) as [|c s IH]; [reflexivity|cbn [append]; rewrite IH; reflexivity]).
  rewrite digits_two by assumption. reflexivity.
Qed.
Lemma id_of_is_id a n : id_of a n -> isLogId n = true.
Proof. intros (f & (V & _) & Y & ->). destruct (log_id_digits f V Y) as (r & D & D6). unfold isLogId. rewrite D. cbn [Ascii.eqb Bool.eqb]. rewrite D6. reflexivity. Qed.
Lemma id_of_tail a n : id_of a n -> py_tail n = true.
Proof. intros (f & (V & _) & Y & ->). destruct (log_id_digits f V Y) as (r & D & D6). unfold py_tail. rewrite D. cbn [Ascii.eqb Bool.eqb]. rewrite D6. reflexivity. Qed.
Lemma py_is_log_app x n : py_tail n = true -> py_is_log (x ++ n) = true.
Proof. intros T. induction x as [|c x IH]; cbn [append]; [destruct n; cbn [py_is_log]; rewrite T; reflexivity|]. cbn [py_is_log]. rewrite IH. apply orb_true_r. Qed.

Lemma filter_in (p : string -> bool) l n : In n (filter p l) <-> In n l /\ p n = true.
Proof. apply filter_In. Qed.
Lemma cpp_newest path entries :
  isLogId (stem path) = false -> plain_dir path -> (forall n, In n entries -> isLogId (stem (join path n)) = true -> exists a, id_of a n) -> (exists a n, In n entries /\ id_of a n) ->
  exists chosen, getLatestLog path entries = Some chosen /\ newest path entries chosen.
Proof.
  intros N PD A (a0 & n0 & I0 & R0). unfold getLatestLog. rewrite N, greatest_join.
  set (l := filter (fun n => isLogId (stem (join path n))) entries).
  assert (Al : forall n, In n l -> exists a, id_of a n) by (intros n I; apply filter_In in I as (I & J); apply (A n I J)).
  assert (Bl : forall n a, In n entries -> id_of a n -> In n l) by (intros n a I R; apply filter_In; split; [exact I|]; rewrite (stem_join path n (id_of_is_id _ _ R)); apply (id_of_is_id _ _ R)).
  assert (Nl : l <> []) by (intros E; specialize (Bl n0 a0 I0 R0); rewrite E in Bl; exact Bl).
  destruct (greatest_newest id_of l id_of_compare Al Nl) as (a & n & G & I & R & M). rewrite G. cbn [option_map]. exists (join path n). split; [reflexivity|].
  exists a, n. split; [apply filter_In in I; tauto|]. split; [exact R|]. split; [apply join_plain; exact PD|]. intros b m Im Rb. apply (M b m (Bl m b Im Rb) Rb).
Qed.
Lemma py_newest path entries :
  py_is_log path = false -> plain_dir path -> (forall n, In n entries -> exists a, id_of a n) -> entries <> [] ->
  exists chosen, py_choose path entries = Some chosen /\ newest path entries chosen.
Proof.
  intros N PD A E. unfold py_choose. rewrite N. destruct (greatest_newest id_of entries id_of_compare A E) as (a & n & G & I & R & M). rewrite G.
  destruct (join_is path) as (x & J). assert (T : py_is_log (join path n) = true).
  { rewrite J. replace (x ++ String "/" n)%string with ((x ++ "/") ++ n)%string by apply append_assoc'. apply py_is_log_app. apply (id_of_tail _ _ R). }
  rewrite T. exists (join path n). split; [reflexivity|]. exists a, n. split; [exact I|]. split; [exact R|]. split; [apply join_plain; exact PD|]. exact M.
Qed.
