From Coq Require Import ZArith Arith List Lia.
From Flocq Require Import IEEE754.BinarySingleNaN.
From Verif Require Import Float64 SrtModel SrtSpec SrtProofs.
Import ListNotations.
Local Open Scope nat_scope.

(** C251: argsort gives the places of the entries in the sorted vector.  Refuted for vectors
    with NaN, for which std::sort has no defined behaviour. *)
Theorem c251_nan_refuted : forall x i j k a b, nth_error x i = Some a -> nth_error x j = Some b -> nth_error x k = Some B754_nan -> flt a b = true -> ~ strict_weak (data x).
Proof. exact nan_weak. Qed.
Print Assumptions c251_nan_refuted.
Theorem c251_sorts_partial : forall x, Forall number x -> strict_weak (data x) /\ (exists r, argsort x r) /\ forall r, argsort x r -> exists y, placed x r y /\ ascending y.
Proof. intros x F. split; [exact (numbers_weak x F)|]. split; [exact (argsort_exists x F)|]. exact (sorts x). Qed.
Print Assumptions c251_sorts_partial.
Example c251_case : Forall number [of_Z 3; B754_infinity true; of_Z 3] /\ flt (of_Z 1) (of_Z 2) = true.
Proof. split; [repeat constructor; intros E; apply (f_equal (fun v : b64 => match v with B754_nan => true | _ => false end)) in E; vm_compute in E; discriminate|vm_compute; reflexivity]. Qed.

(** C252: argsort lists the entries from the smallest to the largest, as in NumPy.  Refuted:
    it gives the places of the entries. *)
Theorem c252_lists_refuted : exists x, Forall number x /\ forall r z, argsort x r -> listed x r z -> ~ ascending z.
Proof.
  exists ex. split; [repeat constructor; intros E; apply (f_equal (fun v : b64 => match v with B754_nan => true | _ => false end)) in E; vm_compute in E; discriminate|].
  intros r z A [_ L] S. apply ex_places in A. subst r. pose proof (L 1 0 eq_refl) as L1. pose proof (L 2 1 eq_refl) as L2. specialize (S 1 2 _ _ (Nat.lt_succ_diag_r 1) L1 L2). vm_compute in S. discriminate.
Qed.
Print Assumptions c252_lists_refuted.
(** Proved when the exchange of places undoes itself, as for two entries *)
Theorem c252_lists_partial : forall x r z, argsort x r -> (forall i p, nth_error r i = Some (Some p) -> nth_error r p = Some (Some i)) -> listed x r z -> ascending z.
Proof. exact involution. Qed.
Print Assumptions c252_lists_partial.
Example c252_case : argsort [of_Z 2; of_Z 1] [Some 1; Some 0] /\ listed [of_Z 2; of_Z 1] [Some 1; Some 0] [of_Z 1; of_Z 2].
Proof.
  split.
  - exists [(1, of_Z 1); (0, of_Z 2)]. split; [split; [apply Permutation.perm_swap|]|reflexivity].
    intros [|[|p]] [|[|q]] a b Q A B; cbn [nth_error] in A, B; try lia; try (destruct p; discriminate); try (destruct q; discriminate). injection A as <-. injection B as <-. vm_compute. reflexivity.
  - split; [reflexivity|]. intros [|[|k]] p E; cbn [nth_error] in E; [injection E as <-; reflexivity|injection E as <-; reflexivity|destruct k; discriminate].
Qed.
