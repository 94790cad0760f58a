(** Concrete cases of rectifying. *)
From Coq Require Import Reals Lra Psatz List.
From Verif Require Import RotModel RotSpec RotProofs RectModel RectSpec RectProofs.
Import ListNotations.
Local Open Scope R_scope.

(** A turn of the axes, each stretched by its own factor *)
Definition case_turn : mat := M 0 1 0 0 0 1 1 0 0.
Definition case_m (a b c : R) : mat := M 0 b 0 0 0 c a 0 0.
Definition case_svd (a b c : R) (m : mat) : svd3 := SVD case_turn (V a b c) mid.
Lemma case_turn_rotation : rotation case_turn.
Proof. unfold rotation, case_turn. mat_eq. repeat split; try lra. f_equal; lra. Qed.
Lemma case_is_svd a b c : 0 <= a -> 0 <= b -> 0 <= c -> is_svd (case_m a b c) (case_svd a b c (case_m a b c)).
Proof.
  intros A B C. unfold is_svd, case_svd. cbn [sU sV ss vx vy vz]. split; [apply rotation_orthonormal, case_turn_rotation|]. split; [apply orthonormal_mid|].
  split; [exact A|]. split; [exact B|]. split; [exact C|]. unfold case_m, case_turn. mat_eq. f_equal; ring.
Qed.
Lemma case_near : mdist2 (case_m 1 (11 / 10) (9 / 10)) case_turn < 1.
Proof. unfold mdist2, case_m, case_turn. cbn [m00 m01 m02 m10 m11 m12 m20 m21 m22]. lra. Qed.
Lemma case_triple a b c : triple (case_m a b c) = a * b * c.
Proof. unfold case_m. mat_eq. ring. Qed.

(** A mirror *)
Definition mirror : mat := M 1 0 0 0 1 0 0 0 (-1).
Lemma mirror_triple : triple mirror = -1.
Proof. unfold mirror. mat_eq. ring. Qed.
Lemma mirror_orthonormal : orthonormal mirror.
Proof. unfold orthonormal, mirror. mat_eq. repeat split; lra. Qed.
Lemma mirror_svd : is_svd mirror (SVD mirror (V 1 1 1) mid).
Proof. apply svd_self, mirror_orthonormal. Qed.
Lemma mirror_not svd : is_svd mirror (svd mirror) -> ~ rotation (rectified svd mirror).
Proof. intros D. apply rect_reflection; [exact D|]. rewrite mirror_triple. lra. Qed.

(** Half a turn about the vertical *)
Definition half : mat := M (-1) 0 0 0 (-1) 0 0 0 1.
Lemma half_rotation : rotation half.
Proof. unfold rotation, half. mat_eq. repeat split; try lra. f_equal; lra. Qed.
Lemma mid_rotation : rotation mid.
Proof. unfold rotation, mid. mat_eq. repeat split; try lra. f_equal; lra. Qed.
Definition race_svd (m : mat) : svd3 := SVD m (V 1 1 1) mid.
Lemma race : exists t, nth_error (threads (run race_svd [0; 1; 0; 0]%nat (W (race_svd mid) (fresh [[mid]; [half]])))) 0 = Some t /\ In (mid, mmul half (transpose mid)) (results t).
Proof. eexists. split; [reflexivity|]. left. reflexivity. Qed.
Lemma race_svd_right l m : In l [[mid]; [half]] -> In m l -> is_svd m (race_svd m).
Proof.
  intros L M. apply svd_self. destruct L as [<-|[<-|[]]]; destruct M as [<-|[]]; [apply orthonormal_mid|apply rotation_orthonormal, half_rotation].
Qed.
Lemma race_wrong : mmul half (transpose mid) <> rectified race_svd mid.
Proof. unfold rectified, orthonormalize, race_svd. cbn [sU sV]. unfold half. mat_eq. intros E. injection E. intros. lra. Qed.
