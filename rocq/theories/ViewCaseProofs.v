(** Cases of the model of objects that look at memory: the statements that do not behave
    as values. *)
From Coq Require Import List Reals Arith Bool Lia Lra.
From Verif Require Import ViewModel ViewSpec ViewProofs.
Import ListNotations.
Local Open Scope R_scope.

(** What [q *= q] leaves *)
Definition square_code (w x y z : R) : list R :=
  let w' := w * w - x * x - y * y - z * z in
  let x' := w * x + x * w' + y * z - z * y in
  let y' := w * y - x * z + y * w' + z * x' in
  [w'; x'; y'; w * z + x * y' - y * x' + z * w'].
Lemma square_runs w x y z : option_map see (run [QNew w x y z; QMulEq (Var 0) (Var 0)]) = Some [[Some (square_code w x y z)]].
Proof. reflexivity. Qed.
Lemma cons_eq (a b : R) l k : a :: l = b :: k -> a = b /\ l = k.
Proof. intros H. inversion H. auto. Qed.
Lemma square_wrong w x y z : x <> 0 -> w * w - x * x - y * y - z * z <> w -> square_code w x y z <> product [w; x; y; z] [w; x; y; z].
Proof.
  intros X W H. unfold square_code, product, outer, inner in H. apply cons_eq in H. destruct H as [_ H]. apply cons_eq in H. destruct H as [H _].
  assert (E : x * ((w * w - x * x - y * y - z * z) - w) = 0) by lra.
  apply Rmult_integral in E. destruct E as [E|E]; [contradiction|]. apply W. lra.
Qed.
Lemma square_apart w x y z t u v r :
  option_map see (run [QNew w x y z; QNew t u v r; QMulEq (Var 0) (Var 1)]) = Some [[Some (product [w; x; y; z] [t; u; v; r])]; [Some [t; u; v; r]]].
Proof. rewrite programs_are_values; [reflexivity|]. repeat constructor. cbn. discriminate. Qed.
Lemma square_copy w x y z :
  option_map see (run [QNew w x y z; QCopy (Var 0); QMulEq (Var 0) (Var 1)]) = Some [[Some (product [w; x; y; z] [w; x; y; z])]; [Some [w; x; y; z]]].
Proof. rewrite programs_are_values; [reflexivity|]. repeat constructor. cbn. discriminate. Qed.

Lemma len8 (l : list R) : length l = 8%nat -> exists a b c d e f g h, l = [a; b; c; d; e; f; g; h].
Proof. destruct l as [|a [|b [|c [|d [|e [|f [|g [|h [|i l]]]]]]]]]; intros H; try discriminate. do 8 eexists. reflexivity. Qed.
Lemma len9 (l : list R) : length l = 9%nat -> exists a b c d e f g h i, l = [a; b; c; d; e; f; g; h; i].
Proof. destruct l as [|a [|b [|c [|d [|e [|f [|g [|h [|i [|j l]]]]]]]]]]; intros H; try discriminate. do 9 eexists. reflexivity. Qed.
Lemma len3 (l : list R) : length l = 3%nat -> exists a b c, l = [a; b; c].
Proof. destruct l as [|a [|b [|c [|d l]]]]; intros H; try discriminate. do 3 eexists. reflexivity. Qed.
Lemma scalars_run l : length l = 8%nat ->
  option_map see (run [DScalars l; DCopy 0]) =
    Some [[Some l; Some [1; 0; 0; 0]; Some [1; 0; 0; 0]]; [Some l; Some (firstn 4 l); Some (skipn 4 l)]].
Proof. intros L. destruct (len8 l L) as (a & b & c & d & e & f & g & h & ->). reflexivity. Qed.
Lemma copy_runs l : length l = 9%nat ->
  option_map see (run [EOf l; ECopy 0]) = Some (repeat [Some l; Some (firstn 3 l); Some (slice 3 3 l); Some (skipn 6 l)] 2).
Proof. intros L. destruct (len9 l L) as (a & b & c & d & e & f & g & h & i & ->). reflexivity. Qed.
Lemma copy_changes l v : length l = 9%nat -> length v = 3%nat ->
  option_map see (run [EOf l; ECopy 0; ESetPart 1 Alpha v]) =
    Some [[Some (v ++ skipn 3 l); Some v; Some (slice 3 3 l); Some (skipn 6 l)];
          [Some l; Some v; Some (slice 3 3 l); Some (skipn 6 l)]].
Proof. intros L V. destruct (len9 l L) as (a & b & c & d & e & f & g & h & i & ->), (len3 v V) as (x & y & z & ->). reflexivity. Qed.
Lemma over_runs l : length l = 4%nat -> option_map see (run [QOver l]) = Some [[None]] /\ run [QOver l; QCopy (Var 0)] = None.
Proof. intros L. destruct (len4 l L) as (a & b & c & d & ->). split; reflexivity. Qed.
