From Coq Require Import ZArith String Ascii List Lia Bool.
From Verif Require Import UtcTimeModel LogNameModel LogNameSpec LogNameProofs StrSpec StrProofs CalModel CalSpec CalProofs.
Local Open Scope Z_scope.

Lemma app_assoc_s (a b c : string) : ((a ++ b) ++ c = a ++ (b ++ c))%string.
Proof. induction a as [|x a IH]; [reflexivity|]. cbn [append]. rewrite IH. reflexivity. Qed.
Definition right_ms (k : Z) : bool :=
  Bool.eqb (number 0 (dec k) * 1000 =? k * 10 ^ Z.of_nat (String.length (dec k))) ((k <? 1) || (100 <=? k)).
Lemma right_all k : 0 <= k < 1000 -> right_ms k = true.
Proof. intros H. apply (check_from_ok 1000 0 right_ms); [vm_compute; reflexivity|lia]. Qed.
Lemma str_cut f n front frac : str f n = (front ++ String "." frac)%string -> ~ has "." front -> frac = dec (n / 1000000).
Proof.
  intros E Hf. unfold str in E. symmetry in E.
  set (A := (dec (year f) ++ "/" ++ dec (month f) ++ "/" ++ dec (day f) ++ " " ++ dec (hour f) ++ ":" ++ dec (minute f) ++ ":" ++ dec (second f))%string).
  assert (EA : (front ++ String "." frac = A ++ String "." (dec (n / 1000000)))%string).
  { rewrite E. unfold A. rewrite !app_assoc_s. reflexivity. }
  assert (HA : ~ has "." A).
  { unfold A. rewrite !has_app. cbn [has]. pose proof (fun z => dec_plain "."%char z ltac:(unfold sep; tauto)) as D.
    pose proof (D (year f)). pose proof (D (month f)). pose proof (D (day f)). pose proof (D (hour f)). pose proof (D (minute f)). pose proof (D (second f)).
    intuition discriminate. }
  destruct (cut "."%char _ _ _ _ Hf HA EA) as [_ R]. exact R.
Qed.
Lemma str_front f n : exists front, str f n = (front ++ String "." (dec (n / 1000000)))%string /\ ~ has "." front.
Proof.
  exists (dec (year f) ++ "/" ++ dec (month f) ++ "/" ++ dec (day f) ++ " " ++ dec (hour f) ++ ":" ++ dec (minute f) ++ ":" ++ dec (second f))%string. split.
  - unfold str. rewrite !app_assoc_s. reflexivity.
  - rewrite !has_app. cbn [has]. pose proof (fun z => dec_plain "."%char z ltac:(unfold sep; tauto)) as D.
    pose proof (D (year f)). pose proof (D (month f)). pose proof (D (day f)). pose proof (D (hour f)). pose proof (D (minute f)). pose proof (D (second f)).
    intuition discriminate.
Qed.
Lemma str_reads f n : 0 <= n < 1000000000 -> (says_ms (str f n) (n / 1000000) <-> n < 1000000 \/ 100000000 <= n).
Proof.
  intros H. assert (K : 0 <= n / 1000000 < 1000) by (split; [apply Z.div_pos; lia|apply Z.div_lt_upper_bound; lia]).
  pose proof (right_all _ K) as R. unfold right_ms in R. apply eqb_prop in R.
  assert (B : (n / 1000000 <? 1) || (100 <=? n / 1000000) = true <-> n < 1000000 \/ 100000000 <= n).
  { rewrite orb_true_iff, Z.ltb_lt, Z.leb_le. pose proof (Z.div_mod n 1000000 ltac:(lia)). pose proof (Z.mod_pos_bound n 1000000 ltac:(lia)). lia. }
  rewrite <- B, <- R, Z.eqb_eq. split.
  - intros (front & frac & E & Hf & _ & V). rewrite (str_cut f n front frac E Hf) in V. exact V.
  - intros V. destruct (str_front f n) as (front & E & Hf). exists front, (dec (n / 1000000)). split; [exact E|]. split; [exact Hf|]. split; [|exact V].
    apply dec_plain. unfold sep. tauto.
Qed.
Lemma str_half : exists f n, broken_down 1577880000 f /\ n = 5000000 /\ says_ms (str f n) 500 /\ ~ says_ms (str f n) 5.
Proof.
  exists (mkTm 2020 1 1 12 0 0), 5000000. split; [unfold broken_down, valid_tm; vm_compute; intuition discriminate|]. split; [reflexivity|]. split.
  - exists "2020/1/1 12:0:0"%string, "5"%string. split; [vm_compute; reflexivity|]. split; [vm_compute; intuition discriminate|]. split; [vm_compute; intuition discriminate|reflexivity].
  - intros H. apply (str_reads _ 5000000) in H; lia.
Qed.
