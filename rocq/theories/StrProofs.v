From Coq Require Import ZArith String Ascii List Bool Lia.
From Verif Require Import LogNameModel LogNameProofs StrModel StrSpec.
Import ListNotations.
Local Open Scope string_scope.

Lemma app_nil s : s ++ "" = s.
Proof. induction s as [|c s IH]; [reflexivity|]. cbn [append]. rewrite IH. reflexivity. Qed.
Lemma app_assoc a b c : (a ++ b) ++ c = a ++ (b ++ c).
Proof. induction a as [|x a IH]; [reflexivity|]. cbn [append]. rewrite IH. reflexivity. Qed.
Lemma has_app c a b : has c (a ++ b) <-> has c a \/ has c b.
Proof. induction a as [|x a IH]; cbn [append has]; [tauto|]. rewrite IH. tauto. Qed.

(** ** Splitting *)
Lemma split_pieces d : forall s token p, ~ has d token -> In p (split_from d token s) -> ~ has d p.
Proof.
  induction s as [|c s IH]; intros token p Ht Hin; cbn [split_from] in Hin.
  - destruct token; [contradiction|]. destruct Hin as [<-|[]]. exact Ht.
  - destruct (Ascii.eqb_spec c d) as [->|Hne].
    + destruct Hin as [<-|Hin]; [exact Ht|]. apply (IH "" p); [intros []|exact Hin].
    + apply (IH (token ++ String c "") p); [|exact Hin]. rewrite has_app. cbn [has]. tauto.
Qed.
Lemma joined_cons d p l : l <> [] -> joined d (p :: l) = p ++ String d (joined d l).
Proof. destruct l; [congruence|reflexivity]. Qed.
Lemma split_nil d : forall s token, split_from d token s = [] -> s = "" /\ token = "".
Proof.
  induction s as [|c s IH]; intros token E; cbn [split_from] in E.
  - destruct token; [split; reflexivity|discriminate].
  - destruct (Ascii.eqb c d); [discriminate|]. destruct (IH _ E) as [_ H]. destruct token; discriminate.
Qed.
(** Ends with the delimiter *)
Lemma split_join d : forall s token,
  ((exists b, s = b ++ String d "") -> token ++ s = joined d (split_from d token s) ++ String d "") /\
  (~ (exists b, s = b ++ String d "") -> token ++ s = joined d (split_from d token s)).
Proof.
  induction s as [|c s IH]; intros token; cbn [split_from].
  - split.
    + intros (b & E). destruct b; discriminate.
    + intros _. rewrite app_nil. destruct token; reflexivity.
  - destruct (Ascii.eqb_spec c d) as [->|Hne].
    + destruct (split_from d "" s) as [|q l] eqn:El.
      * destruct (split_nil d s "" El) as [-> _]. cbn [joined]. split.
        -- intros _. reflexivity.
        -- intros H. exfalso. apply H. exists "". reflexivity.
      * rewrite joined_cons by discriminate. rewrite <- El. destruct (IH "") as [I1 I2]. cbn [append] in I1, I2. split.
        -- intros (b & E). assert (E' : exists b', s = b' ++ String d "").
           { destruct b as [|x b]; cbn [append] in E; [|injection E as _ E; exists b; exact E].
             injection E as E. subst s. discriminate. }
           rewrite (I1 E') at 1. rewrite app_assoc. reflexivity.
        -- intros H. rewrite I2 at 1; [reflexivity|]. intros (b & E). apply H. exists (String d b). rewrite E. reflexivity.
    + destruct (IH (token ++ String c "")) as [I1 I2]. rewrite app_assoc in I1, I2. cbn [append] in I1, I2. split.
      * intros (b & E). apply I1. destruct b as [|x b]; cbn [append] in E; injection E as E1 E2; [congruence|]. exists b. exact E2.
      * intros H. apply I2. intros (b & E). apply H. exists (String c b). rewrite E. reflexivity.
Qed.

(** ** Removing characters *)
Lemma strip_out bad : forall s out, strip_from out s bad = out ++ strip_from "" s bad.
Proof.
  induction s as [|c s IH]; intros out; cbn [strip_from]; [symmetry; apply app_nil|].
  rewrite (IH (if existsb _ bad then out else _)), (IH (if existsb _ bad then "" else _)).
  destruct (existsb _ bad); [reflexivity|]. rewrite app_assoc. reflexivity.
Qed.
Lemma bad_in (c : ascii) bad : existsb (fun b => Ascii.eqb b c) bad = true <-> In c bad.
Proof.
  rewrite existsb_exists. split.
  - intros (b & H & E). apply Ascii.eqb_eq in E. subst b. exact H.
  - intros H. exists c. split; [exact H|apply Ascii.eqb_refl].
Qed.
Lemma strip_without bad : forall s, without bad s (strip_string s bad).
Proof.
  induction s as [|c s IH]; unfold strip_string; cbn [strip_from]; [constructor|].
  destruct (existsb (fun b => Ascii.eqb b c) bad) eqn:E.
  - constructor; [apply bad_in, E|exact IH].
  - rewrite strip_out. cbn [append]. constructor; [|exact IH]. intros H. apply bad_in in H. congruence.
Qed.
Lemma without_unique bad s : forall o p, without bad s o -> without bad s p -> o = p.
Proof.
  induction s as [|c s IH]; intros o p Ho Hp; inversion Ho; inversion Hp; subst; try contradiction; try reflexivity.
  - apply IH; assumption.
  - f_equal. apply IH; assumption.
Qed.

(** ** Stamps *)
Local Open Scope Z_scope.
Fixpoint plain (s : string) : bool := match s with "" => true | String c r => negb (Ascii.eqb c ":") && plain r end.
Fixpoint value (n : Z) (s : string) : Z :=
  match s with "" => n | String c r => value (10 * n + (Z.of_N (N_of_ascii c) - 48)) r end.
Lemma numbers_plain s : forall n, plain s = true -> numbers n s = [value n s].
Proof.
  induction s as [|c s IH]; intros n H; cbn [numbers value plain] in *; [reflexivity|].
  apply andb_prop in H. destruct H as [H1 H2]. destruct (Ascii.eqb c ":"); [discriminate|]. apply IH, H2.
Qed.
Lemma numbers_colon a b : forall n, plain a = true -> numbers n (a ++ ":" ++ b) = value n a :: numbers 0 b.
Proof.
  induction a as [|c a IH]; intros n H; [reflexivity|]. cbn [append numbers value plain] in *.
  apply andb_prop in H. destruct H as [H1 H2]. destruct (Ascii.eqb c ":"); [discriminate|]. apply IH, H2.
Qed.
Definition field_ok (w : nat) (z : Z) : bool :=
  let s := right w (dec z) in plain s && (value 0 s =? z) && negb (String.eqb s "") && (String.length s <=? 3)%nat.
Lemma fields_checked : check_from 1000 0 (fun z => field_ok 0 z && field_ok 2 z && field_ok 3 z) = true.
Proof. vm_compute. reflexivity. Qed.
Lemma field w z : 0 <= z < 1000 -> (w = 0 \/ w = 2 \/ w = 3)%nat ->
  let s := right w (dec z) in plain s = true /\ value 0 s = z /\ s <> "" /\ (String.length s <= 3)%nat.
Proof.
  intros Hz Hw. pose proof (check_from_ok 1000 0 _ fields_checked z ltac:(lia)) as H. cbv beta in H.
  apply andb_prop in H. destruct H as [H H3]. apply andb_prop in H. destruct H as [H0 H2].
  assert (K : field_ok w z = true) by (destruct Hw as [->|[->| ->]]; assumption). clear - K. unfold field_ok in K. cbv zeta in *.
  apply andb_prop in K. destruct K as [K K4]. apply andb_prop in K. destruct K as [K K3]. apply andb_prop in K. destruct K as [K1 K2].
  split; [exact K1|]. split; [apply Z.eqb_eq; exact K2|]. split.
  - intros E. rewrite E in K3. discriminate.
  - apply Nat.leb_le. exact K4.
Qed.
Lemma dec_right z : right 0 (dec z) = dec z.
Proof. reflexivity. Qed.
Lemma app_length a b : String.length (a ++ b) = (String.length a + String.length b)%nat.
Proof. induction a as [|c a IH]; [reflexivity|]. cbn [append String.length]. rewrite IH. reflexivity. Qed.
Lemma reads_numbers s : s <> "" -> reads s = duration (numbers 0 s).
Proof. destruct s; [congruence|reflexivity]. Qed.
Lemma colon_ne a b : (a ++ ":" ++ b)%string <> "".
Proof. destruct a; discriminate. Qed.

(** The parts of a day *)
Lemma parts ms : 0 < ms < 2 ^ 31 ->
  exists h m s k, 0 <= h < 24 /\ 0 <= m < 60 /\ 0 <= s < 60 /\ 0 <= k < 1000 /\
    ms mod 86400000 = ((h * 60 + m) * 60 + s) * 1000 + k /\
    ms_to_stamp ms = (if (0 <? h)%Z then dec h ++ ":" ++ right 2 (dec m) ++ ":" ++ right 2 (dec s) ++ ":" ++ right 3 (dec k)
      else if (0 <? m)%Z then dec m ++ ":" ++ right 2 (dec s) ++ ":" ++ right 3 (dec k)
      else if (0 <? s)%Z then dec s ++ ":" ++ right 3 (dec k) else dec k)%string.
Proof.
  intros Hms. unfold ms_to_stamp. destruct (Z.leb_spec ms 0); [lia|]. cbv zeta.
  change (60 * 1000) with 60000. change (60 * 60 * 1000) with 3600000. change (24 * 60 * 60 * 1000) with 86400000.
  set (k := ms mod 1000). set (s := (ms - k) mod 60000 / 1000). set (m := (ms - (k + s * 1000)) mod 3600000 / 60000).
  set (h := (ms - (k + (s + m * 60) * 1000)) mod 86400000 / 3600000).
  assert (Hk : 0 <= k < 1000) by (apply Z.mod_pos_bound; lia).
  assert (Ek : exists q, ms = 1000 * q + k /\ 0 <= q) by (exists (ms / 1000); split; [apply Z.div_mod; lia|apply Z.div_pos; lia]).
  destruct Ek as (q1 & E1 & P1). clearbody k.
  assert (Es : s = q1 mod 60).
  { unfold s. replace (ms - k) with (q1 * 1000) by lia. change 60000 with (60 * 1000). rewrite Zmult_mod_distr_r, Z.div_mul by lia. reflexivity. }
  clearbody s. assert (Hs : 0 <= s < 60) by (rewrite Es; apply Z.mod_pos_bound; lia).
  assert (E2 : exists q, q1 = 60 * q + s /\ 0 <= q) by (exists (q1 / 60); split; [rewrite Es; apply Z.div_mod; lia|apply Z.div_pos; lia]).
  destruct E2 as (q2 & E2 & P2).
  assert (Em : m = q2 mod 60).
  { unfold m. replace (ms - (k + s * 1000)) with (q2 * 60000) by lia. change 3600000 with (60 * 60000). rewrite Zmult_mod_distr_r, Z.div_mul by lia. reflexivity. }
  clearbody m. assert (Hm : 0 <= m < 60) by (rewrite Em; apply Z.mod_pos_bound; lia).
  assert (E3 : exists q, q2 = 60 * q + m /\ 0 <= q) by (exists (q2 / 60); split; [rewrite Em; apply Z.div_mod; lia|apply Z.div_pos; lia]).
  destruct E3 as (q3 & E3 & P3).
  assert (Eh : h = q3 mod 24).
  { unfold h. replace (ms - (k + (s + m * 60) * 1000)) with (q3 * 3600000) by lia. change 86400000 with (24 * 3600000). rewrite Zmult_mod_distr_r, Z.div_mul by lia. reflexivity. }
  clearbody h. assert (Hh : 0 <= h < 24) by (rewrite Eh; apply Z.mod_pos_bound; lia).
  assert (E4 : exists q, q3 = 24 * q + h /\ 0 <= q) by (exists (q3 / 24); split; [rewrite Eh; apply Z.div_mod; lia|apply Z.div_pos; lia]).
  destruct E4 as (q4 & E4 & P4). clear Es Em Eh.
  replace (ms - (k + (s + (m + h * 60) * 60) * 1000)) with (q4 * 86400000) by lia. rewrite Z.div_mul by lia.
  rewrite (Z.div_small q4 86400000) by lia.
  exists h, m, s, k. split; [exact Hh|]. split; [exact Hm|]. split; [exact Hs|]. split; [exact Hk|]. split.
  - rewrite (Z.mod_unique ms 86400000 q4 (((h * 60 + m) * 60 + s) * 1000 + k)) by lia. reflexivity.
  - reflexivity.
Qed.
Lemma stamp_reads ms : 0 < ms < 2 ^ 31 -> reads (ms_to_stamp ms) = ms mod 86400000.
Proof.
  intros Hms. destruct (parts ms Hms) as (h & m & s & k & Hh & Hm & Hs & Hk & E & ->). rewrite E.
  destruct (field 0 h ltac:(lia) ltac:(lia)) as (h1 & h2 & h3 & _). rewrite dec_right in h1, h2, h3.
  destruct (field 0 m ltac:(lia) ltac:(lia)) as (m1 & m2 & m3 & _). rewrite dec_right in m1, m2, m3.
  destruct (field 0 s ltac:(lia) ltac:(lia)) as (s1 & s2 & s3 & _). rewrite dec_right in s1, s2, s3.
  destruct (field 0 k ltac:(lia) ltac:(lia)) as (k1 & k2 & k3 & _). rewrite dec_right in k1, k2, k3.
  destruct (field 2 m ltac:(lia) ltac:(lia)) as (mm1 & mm2 & _). destruct (field 2 s ltac:(lia) ltac:(lia)) as (ss1 & ss2 & _).
  destruct (field 3 k ltac:(lia) ltac:(lia)) as (kk1 & kk2 & _).
  destruct (Z.ltb_spec 0 h) as [Ph|Ph]; [|destruct (Z.ltb_spec 0 m) as [Pm|Pm]; [|destruct (Z.ltb_spec 0 s) as [Ps|Ps]]].
  - rewrite reads_numbers by apply colon_ne. rewrite (numbers_colon (dec h)), (numbers_colon (right 2 (dec m))), (numbers_colon (right 2 (dec s))), (numbers_plain (right 3 (dec k))) by assumption.
    rewrite h2, mm2, ss2, kk2. cbn [duration]. lia.
  - rewrite reads_numbers by apply colon_ne. rewrite (numbers_colon (dec m)), (numbers_colon (right 2 (dec s))), (numbers_plain (right 3 (dec k))) by assumption.
    rewrite m2, ss2, kk2. cbn [duration]. lia.
  - rewrite reads_numbers by apply colon_ne. rewrite (numbers_colon (dec s)), (numbers_plain (right 3 (dec k))) by assumption.
    rewrite s2, kk2. cbn [duration]. lia.
  - rewrite reads_numbers by exact k3. rewrite (numbers_plain (dec k)) by assumption. rewrite k2. cbn [duration]. lia.
Qed.
Lemma stamp_length ms : ms < 2 ^ 31 -> (String.length (ms_to_stamp ms) < 25)%nat.
Proof.
  intros Hlt. destruct (Z.leb_spec ms 0) as [Hneg|Hpos].
  - unfold ms_to_stamp. destruct (Z.leb_spec ms 0); [cbn; lia|lia].
  - destruct (parts ms ltac:(lia)) as (h & m & s & k & Hh & Hm & Hs & Hk & _ & ->).
    destruct (field 0 h ltac:(lia) ltac:(lia)) as (_ & _ & _ & h4). destruct (field 0 m ltac:(lia) ltac:(lia)) as (_ & _ & _ & m4).
    destruct (field 0 s ltac:(lia) ltac:(lia)) as (_ & _ & _ & s4). destruct (field 0 k ltac:(lia) ltac:(lia)) as (_ & _ & _ & k4).
    rewrite dec_right in h4, m4, s4, k4.
    destruct (field 2 m ltac:(lia) ltac:(lia)) as (_ & _ & _ & mm4). destruct (field 2 s ltac:(lia) ltac:(lia)) as (_ & _ & _ & ss4).
    destruct (field 3 k ltac:(lia) ltac:(lia)) as (_ & _ & _ & kk4).
    destruct (0 <? h); [|destruct (0 <? m); [|destruct (0 <? s)]]; rewrite ?app_length; cbn [String.length]; lia.
Qed.
Lemma stamp_repeats ms : 0 < ms -> ms + 86400000 < 2 ^ 31 -> ms_to_stamp (ms + 86400000) = ms_to_stamp ms.
Proof.
  intros H1 H2. destruct (parts ms ltac:(lia)) as (h & m & s & k & Hh & Hm & Hs & Hk & E & ->).
  destruct (parts (ms + 86400000) ltac:(lia)) as (h' & m' & s' & k' & Hh' & Hm' & Hs' & Hk' & E' & ->).
  replace (ms + 86400000) with (ms + 1 * 86400000) in E' by lia. rewrite Z.mod_add, E in E' by lia.
  assert (k = k') by lia. assert (s = s') by lia. assert (m = m') by lia. assert (h = h') by lia. subst. reflexivity.
Qed.
